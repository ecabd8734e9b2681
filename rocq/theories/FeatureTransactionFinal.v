(** The transaction properties, from the lemmas about single modifications. *)
From Coq Require Import List ZArith Arith Bool Ascii Permutation Lia.
From Verif Require Import Text TextProofs ConstraintModel ConstraintSpec SourceRangeModel FeatureTreeModel FeatureTreeSpec
  FeatureTreeProofs FeatureOrderProofs FeatureTransactionModel FeatureEditSpec FeatureTransactionSpec FeatureEditProofs FeatureOpsProofs
  FeatureRemoveProofs FeatureGroupProofs FeatureDataProofs FeatureRootProofs FeatureHistoryProofs.
Import ListNotations.

(** ** Consistency rules *)
Lemma first_feature_above h : forall k q p, first_feature k h (Some q) = Some (Some p) ->
  forall i c, h_cells h i = Some c -> n_parent c = Some q -> feature_above h i p.
Proof.
  induction k as [|k IH]; intros q p E i c C P; [discriminate|]. cbn [first_feature] in E.
  destruct (h_cells h q) as [cq|] eqn:Cq; [|discriminate]. cbn [bind] in E. destruct (is_feature (n_data cq)) eqn:F.
  - injection E as <-. eapply above_here; eauto.
  - destruct (n_parent cq) as [q'|] eqn:Pq.
    + eapply above_further; eauto.
    + destruct k; discriminate.
Qed.
Lemma parent_feature_above h i p : parent_feature h i = Some (Some p) -> feature_above h i p.
Proof.
  unfold parent_feature. destruct (h_cells h i) as [c|] eqn:C; [|discriminate]. cbn [bind]. destruct (n_parent c) as [q|] eqn:P.
  - intros E. eapply first_feature_above; eauto.
  - discriminate.
Qed.
Lemma first_feature_none h : forall k q, first_feature k h (Some q) = Some None ->
  forall i c p, h_cells h i = Some c -> n_parent c = Some q -> ~ feature_above h i p.
Proof.
  induction k as [|k IH]; intros q E i c p C P A; [discriminate|]. cbn [first_feature] in E.
  destruct (h_cells h q) as [cq|] eqn:Cq; [|discriminate]. cbn [bind] in E. destruct (is_feature (n_data cq)) eqn:F; [discriminate|].
  inversion A as [i0 c0 p0 cp0 C0 P0 Cp0 F0|i0 c0 p0 cp0 q0 C0 P0 Cp0 F0 A0]; subst; assert (c0 = c) as -> by congruence;
    rewrite P in P0; injection P0 as <-; rewrite Cq in Cp0; injection Cp0 as <-.
  - congruence.
  - destruct (n_parent cq) as [q'|] eqn:Pq.
    + exact (IH q' E q cq p Cq Pq A0).
    + inversion A0 as [? c1 ? ? C1 P1|? c1 ? ? ? C1 P1]; subst; congruence.
Qed.
Lemma parent_feature_none h i p : parent_feature h i = Some None -> ~ feature_above h i p.
Proof.
  unfold parent_feature. destruct (h_cells h i) as [c|] eqn:C; [|discriminate]. cbn [bind]. destruct (n_parent c) as [q|] eqn:P.
  - intros E. eapply first_feature_none; eauto.
  - intros _ A. inversion A; congruence.
Qed.

Lemma option_all_spec {A} (p : A -> option bool) l b : option_all p l = Some b ->
  (forall a, In a l -> exists x, p a = Some x) /\ (b = true <-> forall a, In a l -> p a = Some true).
Proof.
  revert b. induction l as [|a l IH]; intros b E; unfold option_all in *; cbn [fold_right] in E.
  - injection E as <-. split; [intros a []|]. split; [intros _ a []|reflexivity].
  - destruct (p a) as [x|] eqn:Pa; [|discriminate]. cbn [bind] in E.
    destruct (fold_right _ (Some true) l) as [y|]; [|discriminate]. injection E as <-.
    destruct (IH y eq_refl) as (I1 & I2). split.
    + intros c [<-|I]; eauto.
    + rewrite andb_true_iff. split.
      * intros (-> & ->) c [<-|I]; [exact Pa|]. apply I2; [reflexivity|exact I].
      * intros F. split; [specialize (F a (or_introl eq_refl)); congruence|]. apply I2. intros c I. apply F. right. exact I.
Qed.

Lemma is_root_spec h i f : feature_at h i = Some f -> (is_root_kind f = true <-> root_at h i).
Proof.
  intros E. unfold root_at, is_root_kind. split.
  - intros K. exists f. split; [exact E|]. destruct (f_kind f); try discriminate. reflexivity.
  - intros (g & G & K). assert (g = f) as -> by congruence. rewrite K. reflexivity.
Qed.

Lemma filter_single {A} (p : A -> bool) l : length (filter p l) = 1 <->
  exists a e b, l = a ++ e :: b /\ p e = true /\ forall x, In x (a ++ b) -> p x = false.
Proof.
  split.
  - induction l as [|x l IH]; [discriminate|]. cbn [filter]. destruct (p x) eqn:Px.
    + cbn [length]. intros E. injection E as E. exists [], x, l. split; [reflexivity|]. split; [exact Px|]. cbn [app]. intros y Iy.
      destruct (p y) eqn:Py; [|reflexivity]. exfalso. assert (In y (filter p l)) as I by (apply filter_In; auto).
      destruct (filter p l); [destruct I|discriminate].
    + intros E. destruct (IH E) as (a & e & b & -> & Pe & F). exists (x :: a), e, b. split; [reflexivity|]. split; [exact Pe|].
      intros y [<-|Iy]; auto.
  - intros (a & e & b & -> & Pe & F). rewrite filter_app. cbn [filter]. rewrite Pe, app_length. cbn [length].
    assert (forall l', (forall x, In x l' -> p x = false) -> filter p l' = []) as Z.
    { induction l' as [|x l' IH]; [reflexivity|]. intros G. cbn [filter]. rewrite G by (left; reflexivity). apply IH. intros y Iy. apply G. right. exact Iy. }
    rewrite !Z; [reflexivity| |]; intros x Ix; apply F; apply in_or_app; auto.
Qed.

Lemma consistent_rules h m b : consistent h m = Some b -> (b = true <-> rules_hold h m).
Proof.
  unfold consistent. intros E.
  destruct (one_root h m) as [b1|] eqn:E1; [|discriminate]. cbn [bind] in E.
  assert ((exists r, m_root m = Some r /\ root_at h r) /\
          (exists a e b, m_features m = a ++ e :: b /\ root_at h (snd e) /\ forall x, In x (a ++ b) -> ~ root_at h (snd x)) <-> b1 = true) as R1.
  { unfold one_root in E1. destruct (m_root m) as [r|] eqn:Er.
    2:{ injection E1 as <-. split; [|discriminate]. intros ((r & X & _) & _). discriminate. }
    destruct (feature_at h r) as [f|] eqn:Ef; [|discriminate]. cbn [bind] in E1.
    destruct (fold_right _ (Some []) (m_features m)) as [fs|] eqn:Efs; [|discriminate]. cbn [bind] in E1. injection E1 as <-.
    assert (forall e, In e (m_features m) -> exists f, feature_at h (snd e) = Some f) as A.
    { clear - Efs. revert fs Efs. induction (m_features m) as [|e l IH]; intros fs Efs; [intros e []|]. cbn [fold_right] in Efs.
      destruct (feature_at h (snd e)) as [f|] eqn:Ef; [|discriminate]. cbn [bind] in Efs.
      destruct (fold_right _ (Some []) l) as [fs'|]; [|discriminate]. intros x [<-|I]; [eauto|]. eapply IH; eauto. }
    destruct (collect_features h (m_features m) A) as (fs' & Efs' & L). rewrite Efs in Efs'. injection Efs' as <-.
    rewrite L, andb_true_iff, Nat.eqb_eq, filter_single. rewrite (is_root_spec h r f Ef).
    assert (forall e, In e (m_features m) -> (match feature_at h (snd e) with Some f0 => is_root_kind f0 | None => false end = true <-> root_at h (snd e))) as Q.
    { intros e I. destruct (A e I) as (g & G). rewrite G. apply is_root_spec. exact G. }
    split.
    - intros ((r' & X & Y) & (a & e & b' & Em & Re & F)). injection X as <-. split; [exact Y|]. exists a, e, b'. split; [exact Em|].
      split; [apply Q; [rewrite Em; apply in_elt|exact Re]|]. intros x Ix.
      specialize (F x Ix). specialize (Q x). destruct (match feature_at h (snd x) with Some _ => _ | None => _ end); [|reflexivity].
      exfalso. apply F, Q; [|reflexivity]. rewrite Em. apply in_app_or in Ix. apply in_or_app. cbn [In]. tauto.
    - intros (Y & (a & e & b' & Em & Re & F)). split; [exists r; auto|]. exists a, e, b'. split; [exact Em|].
      split; [apply Q; [rewrite Em; apply in_elt|exact Re]|]. intros x Ix X. apply Q in X; [rewrite F in X by exact Ix; discriminate|].
      rewrite Em. apply in_app_or in Ix. apply in_or_app. cbn [In]. tauto. }
  destruct b1; cbn [negb] in E.
  2:{ injection E as <-. split; [discriminate|]. intros []. assert (false = true) by (apply R1; auto). assumption. }
  destruct (every_feature_has_parent h m) as [b2|] eqn:E2; [|discriminate]. cbn [bind] in E.
  apply option_all_spec in E2. destruct E2 as (A2 & E2).
  assert ((forall s i, In (s, i) (m_features m) -> ~ root_at h i -> exists p, feature_above h i p) <-> b2 = true) as R2.
  { rewrite E2. clear E2. split.
    - intros F (s & i) I. destruct (A2 _ I) as (x & X). cbn [snd] in *. destruct (feature_at h i) as [f|] eqn:Ef; [|discriminate]. cbn [bind] in *.
      destruct (is_root_kind f) eqn:K; [reflexivity|]. destruct (F s i I) as (p & P).
      + intros Ra. apply (is_root_spec h i f Ef) in Ra. congruence.
      + destruct (parent_feature h i) as [[q|]|] eqn:Pf; [reflexivity| |discriminate]. exfalso. exact (parent_feature_none h i p Pf P).
    - intros F s i I N. specialize (F _ I). cbn [snd] in F. destruct (feature_at h i) as [f|] eqn:Ef; [|discriminate]. cbn [bind] in F.
      destruct (is_root_kind f) eqn:K; [exfalso; apply N; apply (is_root_spec h i f Ef); exact K|].
      destruct (parent_feature h i) as [[q|]|] eqn:Pf; [|discriminate|discriminate]. exists q. apply parent_feature_above. exact Pf. }
  destruct b2; cbn [negb] in E.
  2:{ injection E as <-. split; [discriminate|]. intros []. assert (false = true) by (apply R2; auto). assumption. }
  apply option_all_spec in E. destruct E as (A3 & E3).
  assert ((forall s i, In (s, i) (m_features m) -> ~ root_at h i ->
    exists c p cp, h_cells h i = Some c /\ n_parent c = Some p /\ h_cells h p = Some cp /\ In i (n_edges cp)) <-> b = true) as R3.
  { rewrite E3. clear E3. split.
    - intros F (s & i) I. destruct (A3 _ I) as (x & X). cbn [snd] in *. destruct (feature_at h i) as [f|] eqn:Ef; [|discriminate]. cbn [bind] in *.
      destruct (is_root_kind f) eqn:K; [reflexivity|]. destruct (F s i I) as (c & p & cp & C & P & Cp & Ii).
      + intros Ra. apply (is_root_spec h i f Ef) in Ra. congruence.
      + rewrite C. cbn [bind]. rewrite P. cbn [bind]. rewrite Cp. cbn [bind]. f_equal. apply mem_spec. exact Ii.
    - intros F s i I N. specialize (F _ I). cbn [snd] in F. destruct (feature_at h i) as [f|] eqn:Ef; [|discriminate]. cbn [bind] in F.
      destruct (is_root_kind f) eqn:K; [exfalso; apply N; apply (is_root_spec h i f Ef); exact K|].
      destruct (h_cells h i) as [c|]; [|discriminate]. cbn [bind] in F. destruct (n_parent c) as [p|] eqn:P; [|discriminate]. cbn [bind] in F.
      destruct (h_cells h p) as [cp|] eqn:Cp; [|discriminate]. cbn [bind] in F. injection F as F. apply mem_spec in F.
      exists c, p, cp. auto. }
  destruct (proj2 R1 eq_refl) as (X1 & X2). pose proof (proj2 R2 eq_refl) as X3. split.
  - intros B. constructor; auto. apply R3. exact B.
  - intros []. apply R3. assumption.
Qed.

(** ** Modify transactions *)
Section Final.
Variable ord : list nid -> list nid.

Lemma run_all os w w' : all_succeed ord os w w' -> run ord os w = Some (w', None).
Proof. intros A. induction A as [w|o os w w1 w2 E A IH]; [reflexivity|]. cbn [run]. rewrite E. exact IH. Qed.
Lemma run_early before o after w w1 w' e : all_succeed ord before w w1 -> exec ord o w1 = Some (w', Some e) ->
  run ord (before ++ o :: after) w = Some (w', Some e).
Proof.
  intros A E. induction A as [w|o' os w w1 w2 E' A IH]; cbn [app run].
  - rewrite E. reflexivity.
  - rewrite E'. cbn [bind]. apply IH. exact E.
Qed.
Lemma run_ends os : forall w w' e, run ord os w = Some (w', e) ->
  match e with
  | None => all_succeed ord os w w'
  | Some c => exists before o after w1, os = before ++ o :: after /\ all_succeed ord before w w1 /\ exec ord o w1 = Some (w', Some c)
  end.
Proof.
  induction os as [|o os IH]; intros w w' e E; cbn [run] in E.
  - injection E as <- <-. constructor.
  - destruct (exec ord o w) as [[w1 [c|]]|] eqn:Eo; [| |discriminate]; cbn [bind] in E.
    + injection E as <- <-. exists [], o, os, w. split; [reflexivity|]. split; [constructor|exact Eo].
    + specialize (IH _ _ _ E). destruct e as [c|].
      * destruct IH as (b & o' & a & w2 & -> & A & E'). exists (o :: b), o', a, w2. split; [reflexivity|]. split; [econstructor; eauto|exact E'].
      * econstructor; eauto.
Qed.

Lemma commit_ends os w t w' e : commit_modify ord (Mtx true os) w = Some (t, w', e) <->
  t = Mtx false os /\ ends ord os w w' e.
Proof.
  unfold commit_modify. cbn [t_open t_queue]. split.
  - intros E. destruct (run ord os w) as [[w1 [c|]]|] eqn:Er; [| |discriminate]; cbn [bind] in E; pose proof (run_ends _ _ _ _ Er) as A; cbn in A.
    + injection E as <- <- <-. split; [reflexivity|]. destruct A as (b & o & a & w2 & -> & A & Eo). eapply ends_early; eauto.
    + destruct (consistent (fst w1) (snd w1)) as [[]|] eqn:Ec; [| |discriminate]; cbn [bind] in E; injection E as <- <- <-; split; try reflexivity;
        constructor; assumption.
  - intros (-> & En). inversion En as [w1 A C|w1 A C|b o a w1 w2 c Eq A Eo]; subst.
    + rewrite (run_all _ _ _ A). cbn [bind]. rewrite C. reflexivity.
    + rewrite (run_all _ _ _ A). cbn [bind]. rewrite C. reflexivity.
    + rewrite (run_early _ _ _ _ _ _ _ A Eo). reflexivity.
Qed.

Lemma enqueued os : fold_left (fun o x => let* t := o in enqueue t x) os (Some mtx_start) = Some (Mtx true os).
Proof.
  assert (forall q, fold_left (fun o x => let* t := o in enqueue t x) os (Some (Mtx true q)) = Some (Mtx true (q ++ os))) as G.
  { induction os as [|o os IH]; intros q; cbn [fold_left].
    - rewrite app_nil_r. reflexivity.
    - cbn [bind]. unfold enqueue at 2. cbn [t_open t_queue orb]. rewrite IH, <- app_assoc. reflexivity. }
  apply G.
Qed.

Lemma failed_unchanged o w w' e : exec ord o w = Some (w', Some e) -> (forall k c, o <> OAddConstraint k c) -> w' = w.
Proof.
  destruct w as [h m]. intros E N. destruct o as [f p|r rec|k r|r|r l|r l|k c|s|s|s|s|rp rc]; cbn [exec] in E.
  - unfold exec_add_feature in E. destruct (store_feature h m f) as [[[i h1] m1]|]; [|unfold failure in E; congruence].
    destruct p as [p|]; [|destruct (m_root m1) as [p|]; [|discriminate]]; destruct (link h1 p i); discriminate.
  - unfold exec_remove_feature in E. destruct (resolve m r) as [f|]; [|unfold failure in E; congruence]. destruct rec.
    + destruct (remove_tree _ _ _ _); discriminate.
    + destruct (child_features ord h f) as [[|x cs]|]; [| |discriminate]; cbn [bind] in E; [|unfold failure in E; congruence].
      destruct (child_relationships ord h f) as [rs|]; [|discriminate]. cbn [bind] in E.
      destruct (match rs with [] => Some (h, m) | r0 :: _ => erase_relationship h m r0 end) as [w1|]; [|discriminate]. cbn [bind] in E.
      destruct (detach (fst w1) (snd w1) f); discriminate.
  - unfold exec_add_relationship in E. destruct (store_relationship h m k) as [[i h1] m1]. destruct (resolve m1 r) as [p|]; [|discriminate].
    cbn [bind] in E. destruct (link h1 p i) as [h2|]; [|discriminate]. cbn [bind] in E. destruct (child_features ord h2 p) as [cs|]; [|discriminate].
    cbn [bind] in E. destruct (regroup h2 p i cs); discriminate.
  - unfold exec_remove_relationship in E. destruct (resolve m r) as [p|]; [|unfold failure in E; congruence].
    destruct (child_relationships ord h p) as [[|i rs]|]; try discriminate. cbn [bind] in E.
    destruct (remove_edge h p i) as [h1|]; [|discriminate]. cbn [bind] in E. destruct (child_features ord h1 i) as [cs|]; [|discriminate].
    cbn [bind] in E. destruct (regroup h1 i p cs) as [h2|]; [|discriminate]. cbn [bind] in E. destruct (erase_relationship h2 m i); discriminate.
  - unfold exec_add_location in E. destruct (resolve m r) as [i|]; [|discriminate]. cbn [bind] in E.
    destruct (modify_feature _ _ _); discriminate.
  - unfold exec_remove_location in E. destruct (resolve m r) as [i|]; [|discriminate]. cbn [bind] in E.
    destruct (modify_feature _ _ _); discriminate.
  - exfalso. exact (N k c eq_refl).
  - discriminate.
  - discriminate.
  - discriminate.
  - unfold exec_set_root in E. destruct (m_root m) as [r|] eqn:Er.
    + destruct (name_at h r) as [t|]; [|discriminate]. cbn [bind] in E. destruct (text_eqb t s); [discriminate|].
      destruct (store_feature h m (root_feature s)) as [[[i h1] m1]|]; [|unfold failure in E; congruence].
      destruct (m_root m1) as [r1|]; [|discriminate]. destruct (h_cells h1 r1) as [c|]; [|discriminate]. cbn [bind] in E.
      destruct (attach_all h1 i (n_edges c)) as [h2|]; [|discriminate]. cbn [bind] in E. destruct (h_cells h2 i) as [ci|]; [|discriminate]. cbn [bind] in E.
      destruct (detach_all h2 r1 (n_edges ci)) as [h3|]; [|discriminate]. cbn [bind] in E. destruct (erase_feature h3 m1 r1) as [[h4 m2]|]; discriminate.
    + destruct (store_feature h m (root_feature s)) as [[[i h1] m1]|]; [|unfold failure in E; congruence].
      destruct (m_root m1) as [r1|]; [|discriminate]. destruct (h_cells h1 r1) as [c|]; [|discriminate]. cbn [bind] in E.
      destruct (attach_all h1 i (n_edges c)) as [h2|]; [|discriminate]. cbn [bind] in E. destruct (h_cells h2 i) as [ci|]; [|discriminate]. cbn [bind] in E.
      destruct (detach_all h2 r1 (n_edges ci)) as [h3|]; [|discriminate]. cbn [bind] in E. destruct (erase_feature h3 m1 r1) as [[h4 m2]|]; discriminate.
  - unfold exec_add_child in E. destruct (resolve m rc) as [c|]; [|unfold failure in E; congruence].
    destruct (resolve m rp) as [p|]; [|unfold failure in E; congruence]. destruct (Nat.eqb c p); [unfold failure in E; congruence|].
    destruct (h_cells h c) as [cc|]; [|discriminate]. cbn [bind] in E.
    destruct (match n_parent cc with Some q => remove_edge h q c | None => Some h end) as [h1|]; [|discriminate]. cbn [bind] in E.
    destruct (add_edge h1 p c) as [h2|]; [|discriminate]. cbn [bind] in E. destruct (set_parent h2 c (Some p)); discriminate.
Qed.

(** ** Grouping and ungrouping *)
Hypothesis ord_ok : is_order ord.

Lemma edit_edit p g g' t : NoDup (ids t) -> (forall s, rid (g s) = rid s) -> edit p g' (edit p g t) = edit p (fun s => g' (g s)) t.
Proof.
  intros D Hg. induction t as [n d ts IH] using tree_ind'. cbn [edit]. destruct (Nat.eqb_spec n p) as [->|N].
  - apply edit_top. apply Hg.
  - cbn [edit]. destruct (Nat.eqb_spec n p) as [->|_]; [congruence|]. f_equal. rewrite map_map. apply map_ext_in. intros a I.
    rewrite Forall_forall in IH. apply IH; [exact I|]. cbn [ids] in D. apply NoDup_cons_iff in D. eapply nodup_flat_map_in; [apply D|exact I].
Qed.

Lemma edit_ext p g g' t : (forall s, subtree s t -> rid s = p -> g s = g' s) -> edit p g t = edit p g' t.
Proof.
  induction t as [n d ts IH] using tree_ind'. intros E. cbn [edit]. destruct (Nat.eqb_spec n p) as [->|N].
  - apply E; [constructor|reflexivity].
  - f_equal. apply map_ext_in. intros a I. rewrite Forall_forall in IH. apply IH; [exact I|]. intros s S1. apply E. eapply sub_kid; eauto.
Qed.

Definition parent_at (h : heap) (i : nid) : option (option nid) := option_map n_parent (h_cells h i).

Lemma subtree_edit p g s t : NoDup (ids t) -> subtree s t -> rid s = p -> subtree (g s) (edit p g t).
Proof.
  intros D S1 E. induction S1 as [|n d ts t It S1 IH].
  - rewrite edit_top by exact E. constructor.
  - cbn [ids] in D. apply NoDup_cons_iff in D. destruct D as (Nn & D). cbn [edit]. destruct (Nat.eqb_spec n p) as [->|N].
    + exfalso. apply Nn. apply in_flat_map. exists t. split; [exact It|]. eapply subtree_ids; [exact S1|]. rewrite <- E. apply rid_in_ids.
    + eapply sub_kid; [apply in_map; exact It|]. apply IH. eapply nodup_flat_map_in; eauto.
Qed.

Lemma kids_disjoint ts a b x : NoDup (flat_map ids ts) -> In a ts -> In b ts -> rid a <> rid b -> In x (ids a) -> In x (ids b) -> False.
Proof.
  induction ts as [|t ts IH]; [intros _ []|]. cbn [flat_map]. intros D Ia Ib N Xa Xb. apply nodup_app in D. destruct D as (_ & D & X).
  destruct Ia as [<-|Ia], Ib as [<-|Ib].
  - apply N. reflexivity.
  - apply (X x Xa). apply in_flat_map. eauto.
  - apply (X x Xb). apply in_flat_map. eauto.
  - apply IH; assumption.
Qed.
Lemma kids_unique ts a b : NoDup (flat_map ids ts) -> In a ts -> In b ts -> rid a = rid b -> a = b.
Proof.
  induction ts as [|t ts IH]; [intros _ []|]. cbn [flat_map]. intros D Ia Ib E. apply nodup_app in D. destruct D as (_ & D & X).
  destruct Ia as [<-|Ia], Ib as [<-|Ib].
  - reflexivity.
  - exfalso. apply (X (rid t) (rid_in_ids t)). rewrite E. apply rid_in_kids. exact Ib.
  - exfalso. apply (X (rid t) (rid_in_ids t)). rewrite <- E. apply rid_in_kids. exact Ia.
  - apply IH; assumption.
Qed.
Lemma subtree_top_or s n d ts : subtree s (Node n d ts) -> s = Node n d ts \/ exists t, In t ts /\ subtree s t.
Proof. intros S1. inversion S1; subst; [left; reflexivity|right; eauto]. Qed.

Lemma subtree_edited p g s t u : NoDup (ids t) -> subtree s t -> rid s = p -> subtree u t ->
  (exists k, In k (kids s) /\ subtree u k) \/ subtree (edit p g u) (edit p g t).
Proof.
  intros D S1 E U. induction U as [|n d ts t It U IH].
  - right. constructor.
  - cbn [edit]. destruct (Nat.eqb_spec n p) as [Enp|N].
    + left. assert (s = Node n d ts) as -> by (apply (subtree_top s n d ts D S1); congruence). exists t. split; [exact It|exact U].
    + destruct (subtree_top_or s n d ts S1) as [->|(t' & It' & S2)]; [cbn [rid] in E; congruence|].
      cbn [ids] in D. apply NoDup_cons_iff in D. destruct D as (Nn & D).
      destruct (Nat.eq_dec (rid t') (rid t)) as [Et|Nt].
      * assert (t' = t) as -> by (eapply kids_unique; eauto). destruct (IH (nodup_flat_map_in _ _ _ D It) S2) as [L|Rt]; [left; exact L|].
        right. eapply sub_kid; [apply in_map; exact It|exact Rt].
      * right. eapply sub_kid; [apply in_map; exact It|]. rewrite (edit_absent p g t).
        -- rewrite edit_absent; [exact U|]. intros X. apply (subtree_ids u t p U) in X. eapply kids_disjoint; [exact D|exact It'|exact It|exact Nt| |exact X].
           eapply subtree_ids; [exact S2|]. rewrite <- E. apply rid_in_ids.
        -- intros X. eapply kids_disjoint; [exact D|exact It'|exact It|exact Nt| |exact X].
           eapply subtree_ids; [exact S2|]. rewrite <- E. apply rid_in_ids.
Qed.

Lemma edit_parent t s us : NoDup (ids t) -> subtree s t -> Permutation us (kids s) ->
  forall u v, subtree u t -> In v (kids u) ->
  exists u' v', subtree u' (edit (rid s) (with_kids us) t) /\ In v' (kids u') /\ rid u' = rid u /\ rid v' = rid v.
Proof.
  intros D S1 P u v U Iv.
  assert (forall x, rid (edit (rid s) (with_kids us) x) = rid x) as Er.
  { intros [n d ts]. cbn [edit]. destruct (Nat.eqb n (rid s)); reflexivity. }
  destruct (subtree_edited (rid s) (with_kids us) s t u D S1 eq_refl U) as [(k & Ik & Uk)|Ue].
  - exists u, v. split; [|auto]. eapply subtree_trans; [exact Uk|].
    apply (subtree_trans k (with_kids us s)); [|apply (subtree_edit _ _ _ _ D S1 eq_refl)].
    destruct s as [n d ts]. apply subtree_kid. cbn [kids] in *. eapply Permutation_in; [apply Permutation_sym; exact P|exact Ik].
  - destruct (Nat.eq_dec (rid u) (rid s)) as [E|N].
    + assert (u = s) as -> by (apply (subtree_unique t); auto). rewrite edit_top in Ue by reflexivity.
      exists (with_kids us s), v. split; [exact Ue|]. split; [|auto]. destruct s as [n d ts]. cbn [kids with_kids] in *.
      eapply Permutation_in; [apply Permutation_sym; exact P|exact Iv].
    + exists (edit (rid s) (with_kids us) u), (edit (rid s) (with_kids us) v). split; [exact Ue|]. split; [|split; apply Er].
      destruct u as [n d ts]. cbn [edit rid kids] in *. destruct (Nat.eqb_spec n (rid s)) as [X|_]; [contradiction|]. apply in_map. exact Iv.
Qed.

Lemma group_ungroup h m t k r s :
  represents h m t -> resolve m r = Some (rid s) -> subtree s t -> is_feature (rdata s) = true -> own_groups (kids s) = [] ->
  exists h1 m1 us, exec ord (OAddRelationship k r) (h, m) = Some ((h1, m1), None) /\
    Permutation us (kids s) /\
    represents h1 m1 (edit (rid s) (with_kids [Node (h_next h) (NRelationship k) us]) t) /\
    m_features m1 = m_features m /\ same_rest m m1 /\
    exists h2 m2 us2, exec ord (ORemoveRelationship r) (h1, m1) = Some ((h2, m2), None) /\
      Permutation us2 (kids s) /\ represents h2 m2 (edit (rid s) (with_kids us2) t) /\ m2 = m.
Proof.
  intros R Er S1 F Og. pose proof (rep_ids _ _ _ R) as D.
  destruct (exec_add_relationship_ok ord ord_ok h m t k r s R Er S1 F Og) as (h1 & us & E1 & P1 & R1 & _).
  set (m1 := with_relationships m (m_relationships m ++ [h_next h])) in *. set (g := Node (h_next h) (NRelationship k) us) in *.
  exists h1, m1, us. split; [exact E1|]. split; [exact P1|]. split; [exact R1|]. split; [reflexivity|].
  split; [repeat split|].
  assert (resolve m1 r = Some (rid s)) as Er1 by (destruct r; exact Er).
  assert (subtree (Node (rid s) (rdata s) ([] ++ g :: [])) (edit (rid s) (with_kids [g]) t)) as S2.
  { exact (subtree_edit (rid s) (with_kids [g]) s t D S1 eq_refl). }
  destruct (exec_remove_relationship_ok ord ord_ok h1 m1 _ r (rid s) (rdata s) [] (h_next h) k us [] R1 Er1 S2 F eq_refl)
    as (h2 & m2 & us2 & E2 & P2 & Em & R2 & _ & _).
  exists h2, m2, us2. split; [exact E2|]. split; [eapply Permutation_trans; eauto|]. split.
  - rewrite edit_edit in R2 by (auto; intros []; reflexivity). cbn [app] in R2.
    erewrite edit_ext; [exact R2|]. intros x _ _. destruct x; reflexivity.
  - subst m2 m1. unfold with_relationships. cbn [m_name m_root m_path m_commit m_features m_boolean m_nonboolean m_mixed m_relationships].
    assert (set_remove (h_next h) (m_relationships m ++ [h_next h]) = m_relationships m) as ->; [|destruct m; reflexivity].
    rewrite set_remove_mid.
    + apply app_nil_r.
    + rewrite app_nil_r. intros X. apply (rep_fresh R). apply (rep_node R). apply in_or_app. right. exact X.
Qed.

Lemma regrouped_parents h m t s us h2 m2 : represents h m t -> subtree s t -> Permutation us (kids s) ->
  represents h2 m2 (edit (rid s) (with_kids us) t) -> forall i, In i (nodes m) -> parent_at h2 i = parent_at h i.
Proof.
  intros R S1 P R2 i I. apply (rep_node R) in I. pose proof (rep_ids _ _ _ R) as D.
  (* parents in the edited tree *)
  assert (forall u v, subtree u t -> In v (kids u) -> exists u' v', subtree u' (edit (rid s) (with_kids us) t) /\ In v' (kids u') /\ rid u' = rid u /\ rid v' = rid v) as K.
  { intros u v U Iv. destruct (edit_parent t s us D S1 P u v U Iv) as (u' & v' & X). exists u', v'. exact X. }
  destruct (ids_subtree i t I) as (v & V & <-). destruct (Nat.eq_dec (rid v) (rid t)) as [E|N].
  - unfold parent_at. rewrite E. rewrite (rep_top R). pose proof (rep_top R2) as X.
    replace (rid (edit (rid s) (with_kids us) t)) with (rid t) in X by (destruct t as [n d ts]; cbn [edit]; destruct (Nat.eqb n (rid s)); reflexivity).
    rewrite X. reflexivity.
  - destruct (subtree_proper v t D V N) as (u & U & Iv). destruct (K u v U Iv) as (u' & v' & U' & Iv' & Eu & Ev).
    unfold parent_at. rewrite (rep_kid R u v U Iv). rewrite <- Ev, (rep_kid R2 u' v' U' Iv'). cbn. rewrite Eu. reflexivity.
Qed.
(** Ungrouping a feature that has no relationship of its own. *)
Lemma ungroup_foreign h m t r s :
  represents h m t -> resolve m r = Some (rid s) -> subtree s t -> is_feature (rdata s) = true -> own_groups (kids s) = [] ->
  flat_map (tops is_relationship) (kids s) <> [] ->
  exists h' m' u i c, exec ord (ORemoveRelationship r) (h, m) = Some ((h', m'), None) /\
    subtree u s /\ rid u <> rid s /\ In i (map rid (kids u)) /\ In i (nodes m) /\ ~ In i (nodes m') /\
    h_cells h' i = None /\ h_cells h' (rid u) = Some c /\ In i (n_edges c).
Proof.
  intros R E S1 F Og Ne. destruct (holds_sub h None t s (rep_holds _ _ _ R) S1) as (q & Hs).
  pose proof (subtree_nodup s t S1 (rep_ids _ _ _ R)) as Ds. pose proof (rep_ok _ _ _ R) as O.
  assert (grouped s) as Gs by (eapply grouped_sub; [exact S1|apply (rep_shape _ _ _ R)]).
  cbn [exec]. unfold exec_remove_relationship. rewrite E. unfold child_relationships.
  destruct s as [n d ts]. cbn [rid rdata kids] in *.
  rewrite (get_children_tree ord is_relationship h q n d ts O Hs Ds). cbn [bind].
  destruct (ord (map rid (flat_map (tops is_relationship) ts))) as [|i l] eqn:Eo.
  { exfalso. apply Ne. pose proof (ord_ok (map rid (flat_map (tops is_relationship) ts))) as P. rewrite Eo in P.
    apply Permutation_nil in P. destruct (flat_map (tops is_relationship) ts); [reflexivity|discriminate]. }
  assert (In i (map rid (flat_map (tops is_relationship) ts))) as Ii.
  { eapply Permutation_in; [apply ord_ok|]. rewrite Eo. left. reflexivity. }
  apply in_map_iff in Ii. destruct Ii as (g & Eg & Ig). apply in_flat_map in Ig. destruct Ig as (v & Iv & Ig).
  destruct (tops_subtree _ _ _ Ig) as (Sg & Rg).
  assert (subtree g (Node n d ts)) as Sgs by (eapply sub_kid; eauto).
  assert (~ In i (map rid ts)) as Nit.
  { intros X. apply in_map_iff in X. destruct X as (w & Ew & Iw).
    assert (w = g) as -> by (apply (subtree_unique (Node n d ts)); auto; [apply subtree_kid; exact Iw|congruence]).
    assert (In g (own_groups ts)) as Y by (apply filter_In; split; assumption). rewrite Og in Y. destruct Y. }
  assert (i <> n) as Nin.
  { intros ->. assert (g = Node n d ts) as -> by (apply (subtree_top g n d ts Ds Sgs Eg)). cbn [rdata] in Rg. unfold is_relationship in Rg.
    rewrite F in Rg. discriminate. }
  destruct (subtree_proper g (Node n d ts) Ds Sgs) as (u & U & Igu); [rewrite Eg; exact Nin|].
  assert (rid u <> n) as Nun.
  { intros X. assert (u = Node n d ts) as -> by (apply (subtree_top u n d ts Ds U X)). apply Nit. rewrite <- Eg. apply in_map. exact Igu. }
  pose proof (holds_root _ _ _ _ _ Hs) as Cn. rewrite (remove_edge_some h n i _ Cn). cbn [bind n_data n_parent n_edges].
  assert (set_remove i (map rid ts) = map rid ts) as Er.
  { unfold set_remove. apply filter_all. intros x X. apply negb_true_iff, Nat.eqb_neq. intros ->. contradiction. }
  rewrite Er. set (h1 := h_set h n _).
  assert (forall j, h_cells h1 j = h_cells h j) as U1.
  { intros j. destruct (Nat.eq_dec j n) as [->|N]; [unfold h1; rewrite h_set_same; congruence|unfold h1; apply h_set_other; exact N]. }
  assert (heap_ok h1) as O1.
  { apply h_set_ok; [exact O|]. apply (rep_below R). eapply subtree_ids; [exact S1|left; reflexivity]. }
  pose proof (holds_sub_kid h q (Node n d ts) u g Hs U Igu) as Hg.
  assert (holds h1 (Some (rid u)) g) as Hg1 by (apply (holds_ext h); [exact Hg|intros j _; apply U1]).
  pose proof (subtree_nodup g _ Sgs Ds) as Dg.
  destruct g as [i' dg us]. cbn [rid rdata kids] in *. subst i'. unfold is_relationship in Rg. destruct dg as [|k]; [discriminate|].
  unfold child_features. rewrite (get_children_tree ord is_feature h1 _ i _ us O1 Hg1 Dg).
  change (flat_map (tops is_feature) us) with (near us).
  assert (grouped (Node i (NRelationship k) us)) as Gg by (eapply grouped_sub; [exact Sgs|exact Gs]).
  inversion Gg as [|? ? ? Fu Gu E0]; subst. rewrite (near_features us Fu). cbn [bind].
  pose proof (ord_ok (map rid us)) as P. set (cs := ord (map rid us)) in *.
  cbn [ids] in Dg. apply NoDup_cons_iff in Dg. destruct Dg as (Ni & Du). pose proof (nodup_rids us Du) as Dur.
  assert (forall x, In x cs <-> In x (map rid us)) as Ic by (intros x; split; apply Permutation_in; [|apply Permutation_sym]; exact P).
  assert (forall x, In x (map rid us) -> In x (flat_map ids us)) as Ru.
  { intros x X. apply in_map_iff in X. destruct X as (w & <- & Iw). apply rid_in_kids. exact Iw. }
  assert (forall w, In w us -> subtree w (Node n d ts)) as Sw.
  { intros w Iw. eapply subtree_trans; [apply subtree_kid; exact Iw|exact Sgs]. }
  assert (forall w p cw, In w us -> h_cells h (rid w) = Some cw -> n_parent cw = Some p -> p = i) as Pw.
  { intros w p cw Iw Cw Pc. rewrite (holds_top _ _ _ (holds_kid _ _ _ _ _ _ Hg Iw)) in Cw. injection Cw as <-. cbn in Pc. congruence. }
  assert (h_cells h1 n = Some (Cell d q (map rid ts))) as Cn1 by (rewrite U1; exact Cn).
  pose proof (holds_root _ _ _ _ _ Hg1) as Ci1.
  pose proof Ds as Ds'. cbn [ids] in Ds'. apply NoDup_cons_iff in Ds'. destruct Ds' as (Nn & Dts).
  destruct (regroup_ok i n (NRelationship k) (Some (rid u)) d q Nin cs h1 (map rid us) (map rid ts) Ci1 Cn1) as (h2 & E2 & Hn2 & Ca & Cb & Cc & Co).
  { apply nodup_app. split; [apply nodup_rids; exact Dts|]. split; [eapply Permutation_NoDup; [apply Permutation_sym; exact P|exact Dur]|].
    intros x X Y. apply Ic in Y. apply in_map_iff in X. destruct X as (a & <- & Ia). apply in_map_iff in Y. destruct Y as (w & Ew & Iw).
    apply Nin. symmetry. eapply (Pw w n); [exact Iw|rewrite Ew; apply (holds_top _ _ _ (holds_kid _ _ _ _ _ _ Hs Ia))|reflexivity]. }
  { intros x X. apply Ic. exact X. }
  { intros X. apply Ic, Ru in X. contradiction. }
  { intros X. apply Ic in X. apply in_map_iff in X. destruct X as (w & Ew & Iw).
    assert (w = Node n d ts) as Z by (apply (subtree_top w n d ts Ds (Sw w Iw) Ew)).
    rewrite Forall_forall in Fu. apply Nn. apply in_flat_map. exists v. split; [exact Iv|]. eapply subtree_ids; [exact Sg|]. right.
    rewrite <- Ew. apply rid_in_kids. exact Iw. }
  { intros c X. apply Ic in X. apply in_map_iff in X. destruct X as (w & <- & Iw). eexists _, _.
    apply (holds_top _ _ _ (holds_kid _ _ _ _ _ _ Hg1 Iw)). }
  rewrite E2. cbn [bind]. unfold erase_relationship.
  assert (In i (m_relationships m)) as Im.
  { eapply Permutation_in; [apply Permutation_sym; apply (rep_groups _ _ _ R)|]. apply groups_subtree. exists (Node i (NRelationship k) us), k.
    split; [eapply subtree_trans; [exact Sgs|exact S1]|split; reflexivity]. }
  pose proof Im as Im'. apply mem_spec in Im'. rewrite Im'. cbn [bind].
  pose proof (subtree_ids u _ (rid u) U (rid_in_ids u)) as Iu.
  assert (rid u <> i) as Nui.
  { intros X. assert (u = Node i (NRelationship k) us) as -> by (apply (subtree_unique (Node n d ts)); auto).
    cbn [kids] in Igu. apply Ni. apply (rid_in_kids _ _ Igu). }
  assert (grouped u) as Gu' by (eapply grouped_sub; [exact U|exact Gs]).
  assert (is_feature (rdata u) = true) as Fuu.
  { destruct u as [nu du tu]. cbn [rdata kids] in *. inversion Gu' as [|? ? ? Fk ? E0]; subst; [reflexivity|].
    rewrite Forall_forall in Fk. apply Fk in Igu. discriminate. }
  assert (~ In (rid u) cs) as Nuc.
  { intros X. apply Ic, Ru in X. apply in_flat_map in X. destruct X as (w & Iw & Xw).
    (* u would be above itself *)
    pose proof (subtree_nodup u _ U Ds) as Dnu. destruct u as [nu du tu]. cbn [rid kids] in *. cbn [ids] in Dnu. apply NoDup_cons_iff in Dnu.
    apply (proj1 Dnu). apply in_flat_map. exists (Node i (NRelationship k) us). split; [exact Igu|]. right. apply in_flat_map. eauto. }
  destruct (holds_sub h q _ u Hs U) as (qu & Hu). pose proof (holds_top _ _ _ Hu) as Cu.
  eexists _, _, u, i, _. split; [reflexivity|]. split; [exact U|]. split; [exact Nun|]. split; [apply (in_map rid) in Igu; exact Igu|].
  split; [apply in_or_app; right; exact Im|]. split.
  { unfold nodes, with_relationships. cbn [m_features m_relationships]. intros X. apply in_app_or in X. destruct X as [X|X].
    - apply (rep_feature_node R) in X. destruct X as (w & f & W & Ew & Fw).
      assert (w = Node i (NRelationship k) us) as -> by (apply (subtree_unique t); auto; [apply (rep_ids _ _ _ R)|eapply subtree_trans; eauto]).
      discriminate.
    - apply in_set_remove in X. destruct X as (_ & X). apply X. reflexivity. }
  split; [apply h_set_same|]. split.
  - rewrite h_set_other by exact Nui. rewrite Co; [|exact Nui|exact Nun|exact Nuc]. rewrite U1. exact Cu.
  - cbn [n_edges]. apply (in_map rid) in Igu. exact Igu.
Qed.

(** ** Removal *)
Lemma ids_prune f t : NoDup (ids t) -> forall s, subtree s t -> rid s = f -> rid t <> f ->
  forall i, In i (ids (prune f t)) <-> In i (ids t) /\ ~ In i (ids s).
Proof.
  intros D s S1 E N. destruct (subtree_proper s t D S1) as (u & U & Iu); [congruence|]. subst f.
  rewrite (prune_edit t u s D U Iu). destruct (drop_frame t u s D U Iu) as (_ & Pi & _). intros i. split.
  - intros X. pose proof (Permutation_NoDup Pi D) as D'. apply nodup_app in D'. destruct D' as (_ & _ & D'). split.
    + eapply Permutation_in; [apply Permutation_sym; exact Pi|]. apply in_or_app. auto.
    + intros Y. eapply D'; eauto.
  - intros (X & Y). eapply Permutation_in in X; [|exact Pi]. apply in_app_or in X. tauto.
Qed.

Lemma remove_exact (recursive : bool) h m t r s :
  represents h m t -> resolve m r = Some (rid s) -> subtree s t -> is_feature (rdata s) = true -> rid s <> rid t ->
  (recursive = true \/ near (kids s) = []) ->
  exists h' m', exec ord (ORemoveFeature r recursive) (h, m) = Some ((h', m'), None) /\
    represents h' m' (prune (rid s) t) /\ same_rest m m' /\
    (forall i, In i (nodes m') <-> In i (nodes m) /\ ~ In i (ids s)) /\
    (forall i, In i (ids s) -> h_cells h' i = None) /\
    (forall i, ~ In i (ids t) -> h_cells h' i = h_cells h i).
Proof.
  intros R E S1 F N C.
  assert (exists h' m', exec ord (ORemoveFeature r recursive) (h, m) = Some ((h', m'), None) /\ removed h h' m m' t s) as (h' & m' & E' & R' & Sr & _ & G & Fr).
  { destruct recursive.
    - apply (exec_remove_recursive ord ord_ok); assumption.
    - destruct C as [C|C]; [discriminate|]. apply (exec_remove_leaf ord ord_ok); assumption. }
  exists h', m'. split; [exact E'|]. split; [exact R'|]. split; [exact Sr|]. split; [|split; [exact G|exact Fr]].
  intros i. rewrite (rep_node R' i), (rep_node R i). apply ids_prune; auto. apply (rep_ids _ _ _ R).
Qed.

(** ** Constraints *)
Lemma mentions_names h ls names : Forall2 (mentions h) ls names -> map (cref_name h) ls = map Some names.
Proof.
  intros F. induction F as [|r s ls names M F IH]; [reflexivity|]. cbn [map]. rewrite IH. f_equal. destruct r as [n|i]; cbn in *.
  - subst. reflexivity.
  - destruct M as (f & Ff & <-). unfold name_at. rewrite Ff. reflexivity.
Qed.
Lemma leaves_cmap {F G} (f : F -> G) (c : cexpr F) : leaves (cmap f c) = map f (leaves c).
Proof. induction c; cbn [cmap leaves map]; rewrite ?map_app; congruence. Qed.
Lemma cmap_cmap {F G H} (f : F -> G) (g : G -> H) (c : cexpr F) : cmap g (cmap f c) = cmap (fun x => g (f x)) c.
Proof. induction c; cbn [cmap]; congruence. Qed.

Lemma add_constraint_connects h m t k c names :
  represents h m t -> Forall2 (mentions h) (leaves c) names ->
  exists h' m' c' e, exec ord (OAddConstraint k c) (h, m) = Some ((h', m'), e) /\
    gained k (MConstraint (h_next h) c') m m' /\
    cmap (fun _ => tt) c' = cmap (fun _ => tt) c /\
    Forall2 (fun s p => connected m s (fst p) (snd p)) names (combine (leaves c) (leaves c')) /\
    ((forall s, In s names -> get_feature m s <> None) -> e = None) /\
    ((exists s, In s names /\ get_feature m s = None) -> e = Some MISSING_FEATURE) /\
    (forall i, h_cells h' i = option_map (fun x => Cell (match n_data x with
                                    | NFeature f => NFeature (enlisted c (h_next h) (positions m i names 0) f)
                                    | NRelationship y => NRelationship y
                                    end) (n_parent x) (n_edges x)) (h_cells h i)).
Proof.
  intros R M. pose proof (mentions_names h _ _ M) as Nm.
  destruct (exec_add_constraint_ok ord h m t k c names R Nm) as (h' & c' & E & Ec & _ & Rl & _).
  eexists h', _, c', _. split; [exact E|]. split; [destruct k; repeat split; cbn; rewrite ?app_nil_r; reflexivity|]. split; [subst c'; rewrite cmap_cmap; reflexivity|].
  split.
  { subst c'. rewrite leaves_cmap. clear E Rl. revert names M Nm. induction (leaves c) as [|x l IH]; intros names M Nm; inversion M as [|x' s l' names' M1 M2]; subst; [constructor|].
    cbn [map combine]. cbn [map] in Nm. injection Nm as Nx Nl. constructor; [|apply IH; assumption]. cbn [fst snd]. unfold connected, target. rewrite Nx.
    intros i. split; intros G; rewrite G; reflexivity. }
  split; [|split].
  - intros A. replace (forallb (found m) names) with true; [reflexivity|]. symmetry. apply forallb_forall. intros s I. unfold found.
    specialize (A s I). destruct (get_feature m s); [reflexivity|contradiction].
  - intros (s & I & G). replace (forallb (found m) names) with false; [reflexivity|]. symmetry. apply not_true_is_false. intros A.
    rewrite forallb_forall in A. specialize (A s I). unfold found in A. rewrite G in A. discriminate.
  - intros i. rewrite (Rl i). destruct (h_cells h i) as [[d p es]|]; [|reflexivity]. cbn. unfold enlist_at. destruct d; rewrite ?enlist_enlisted; reflexivity.
Qed.

Lemma add_feature_exact h m t f p s :
  represents h m t -> f_kind f <> FRoot -> get_feature m (f_name f) = None -> subtree s t -> is_feature (rdata s) = true ->
  (p = Some (rid s) \/ p = None /\ s = t) ->
  exists h' m', exec ord (OAddFeature f p) (h, m) = Some ((h', m'), None) /\
    represents h' m' (edit (rid s) (add_kid (Node (h_next h) (NFeature f) [])) t) /\
    m_features m' = m_features m ++ [(f_name f, h_next h)] /\ m_root m' = m_root m /\
    m_relationships m' = m_relationships m /\ same_rest m m' /\
    (forall j, j <> h_next h -> j <> rid s -> h_cells h' j = h_cells h j).
Proof.
  intros R K G S1 F P. destruct (exec_add_feature_ok ord h m t f p s R K G S1 F P) as (h' & m' & E & R' & -> & _ & Fr).
  eexists h', _. split; [exact E|]. split; [exact R'|]. repeat (split; [reflexivity|]). split; [repeat split|exact Fr].
Qed.

Lemma add_child_rejected h m rp rc :
  (resolve m rc = None -> exec ord (OAddChild rp rc) (h, m) = Some ((h, m), Some MISSING_CHILD)) /\
  (forall c, resolve m rc = Some c -> resolve m rp = None -> exec ord (OAddChild rp rc) (h, m) = Some ((h, m), Some MISSING_PARENT)) /\
  (forall c, resolve m rc = Some c -> resolve m rp = Some c -> exec ord (OAddChild rp rc) (h, m) = Some ((h, m), Some RECURSIVE_EDGE)).
Proof.
  cbn [exec]. unfold exec_add_child. split; [|split].
  - intros ->. reflexivity.
  - intros c -> ->. reflexivity.
  - intros c -> ->. rewrite Nat.eqb_refl. reflexivity.
Qed.

Lemma set_root_exact h m t s :
  represents h m t -> get_feature m s = None ->
  exists h' m', exec ord (OSetRoot s) (h, m) = Some ((h', m'), None) /\
    represents h' m' (Node (h_next h) (NFeature (root_feature s)) (kids t)) /\
    same_rest m m' /\ m_relationships m' = m_relationships m /\ h_cells h' (rid t) = None /\
    (forall j, ~ In j (ids t) -> j <> h_next h -> h_cells h' j = h_cells h j).
Proof.
  intros R G. destruct (exec_set_root_ok ord h m t s R G) as (h' & m' & E & R' & Sr & Mr & _ & C & Fr). exists h', m'. auto 10.
Qed.
Lemma set_root_name h m t s : represents h m t ->
  (tname t = s -> exec ord (OSetRoot s) (h, m) = Some ((h, m), None)) /\
  (forall i, get_feature m s = Some i -> i <> rid t -> exec ord (OSetRoot s) (h, m) = Some ((h, m), Some ALREADY_PRESENT)).
Proof.
  intros R. split.
  - intros E. destruct (rep_top_data R) as (f & Ef & _). apply (exec_set_root_same ord h m t s f R Ef). unfold tname in E. rewrite Ef in E. exact E.
  - intros i G N. apply (exec_set_root_present ord h m t s i R G N).
Qed.

(** ** Successful commits *)
Lemma commit_modify_rules t w t' w' : commit_modify ord t w = Some (t', w', None) -> rules_hold (fst w') (snd w').
Proof.
  unfold commit_modify. destruct (t_open t); [|discriminate]. destruct (run ord (t_queue t) w) as [[w1 [c|]]|]; [discriminate| |discriminate].
  cbn [bind]. destruct (consistent (fst w1) (snd w1)) as [[]|] eqn:C; [|discriminate|discriminate]. cbn [bind]. intros E. injection E as <- <-.
  apply (consistent_rules _ _ _ C). reflexivity.
Qed.
Lemma commit_modify_error t w t' w' e : commit_modify ord t w = Some (t', w', e) -> ~ rules_hold (fst w') (snd w') -> e <> None.
Proof. intros E N ->. apply N. eapply commit_modify_rules; eauto. Qed.
Lemma commit_copy_rules h t r t' : commit_copy h t = Some (r, t') ->
  match r with Some m => rules_hold h m /\ x_copy t = Some m | None => x_continue t' = false end /\ x_copy t' = None /\
  (forall m, x_copy t = Some m -> x_continue t = true -> rules_hold h m -> r = Some m).
Proof.
  unfold commit_copy. destruct (x_copy t) as [m|] eqn:X.
  - destruct (x_continue t).
    + destruct (consistent h m) as [b|] eqn:C; [|discriminate]. cbn [bind]. pose proof (consistent_rules h m b C) as Q. destruct b; intros E; injection E as <- <-.
      * split; [split; [apply Q; reflexivity|reflexivity]|]. split; [reflexivity|]. intros m' E. intros. exact E.
      * split; [reflexivity|]. split; [reflexivity|]. intros m' E _ H. injection E as <-. exfalso. apply Q in H. discriminate.
    + intros E. injection E as <- <-. split; [reflexivity|]. split; [reflexivity|]. discriminate.
  - intros E. injection E as <- <-. split; [reflexivity|]. split; [reflexivity|]. discriminate.
Qed.

Lemma closed_refused t w w2 :
  (forall t' w' e, commit_modify ord t w = Some (t', w', e) -> exists t2, commit_modify ord t' w2 = Some (t2, w2, Some ABORTED)) /\
  (exists t2, commit_modify ord (abort_modify t) w = Some (t2, w, Some ABORTED)).
Proof.
  split.
  - intros t' w' e E. assert (t_open t' = false) as O.
    { unfold commit_modify in E. destruct (t_open t); [|injection E as <- _ _; reflexivity].
      destruct (run ord (t_queue t) w) as [[w1 [c|]]|]; cbn [bind] in E; [|destruct (consistent (fst w1) (snd w1)); [|discriminate]|discriminate]; injection E as <- _ _; reflexivity. }
    unfold commit_modify. rewrite O. eexists. reflexivity.
  - eexists. reflexivity.
Qed.
Lemma copy_add_child p c h t : copy_exec ord (OAddChild p c) h t = Some (h, t, None).
Proof. unfold copy_exec. destruct t as [[m|] b]; reflexivity. Qed.
End Final.

(** Destroying a transaction. *)
Lemma destroyed ord os w w' :
  (destroy_modify ord (Mtx true os) w = Some w' <-> exists e, ends ord os w w' e) /\ destroy_modify ord (Mtx false os) w = Some w.
Proof.
  split; [|reflexivity]. unfold destroy_modify. cbn [t_open]. split.
  - destruct (commit_modify ord (Mtx true os) w) as [[[t w1] e]|] eqn:E; cbn [bind]; [|discriminate]. intros X. injection X as <-.
    exists e. apply commit_ends in E. apply E.
  - intros (e & X). rewrite (proj2 (commit_ends ord os w (Mtx false os) w' e) (conj eq_refl X)). reflexivity.
Qed.
Lemma metadata ord h m s :
  (exists m', exec ord (OSetName s) (h, m) = Some ((h, m'), None) /\ m_name m' = s /\ m_commit m' = m_commit m /\ m_path m' = m_path m /\ same_contents m m') /\
  (exists m', exec ord (OSetCommit s) (h, m) = Some ((h, m'), None) /\ m_name m' = m_name m /\ m_commit m' = s /\ m_path m' = m_path m /\ same_contents m m') /\
  (exists m', exec ord (OSetPath s) (h, m) = Some ((h, m'), None) /\ m_name m' = m_name m /\ m_commit m' = m_commit m /\ m_path m' = s /\ same_contents m m').
Proof. split; [|split]; eexists; (split; [reflexivity|]); repeat split. Qed.
