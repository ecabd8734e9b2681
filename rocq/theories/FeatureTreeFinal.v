(** The lemmas behind the property theorems on feature trees. *)
From Coq Require Import List ZArith Arith Bool Ascii String Sorted Permutation Lia.
From Verif Require Import Text FeatureTreeModel FeatureTreeSpec FeatureTreeProofs FeatureOrderProofs FeatureTreeExamples.
Import ListNotations.
Local Open Scope string_scope.
Local Open Scope list_scope.

Lemma iterate_preorder ord h t l :
  is_order ord -> heap_ok h -> holds h None t -> NoDup (ids t) -> is_feature (rdata t) = true ->
  iterate ord (S (h_next h)) h (Some (rid t)) = Some l -> preorder t l.
Proof.
  intros Or O H D F E. destruct (iterate_features ord h t Or O H D F) as (l' & E' & P & _).
  rewrite E' in E by lia. injection E as <-. exact P.
Qed.

(** The ways to a feature and to its parent feature. *)
Lemma fpath_parent h : heap_ok h -> forall t l x, fpath t l x -> forall p,
  holds h p t -> NoDup (ids t) -> is_feature (rdata t) = true -> x <> rid t ->
  exists q l', parent_feature h x = Some (Some q) /\ fpath t l' q /\ exists r, l = l' ++ x :: r.
Proof.
  intros O t l x P. induction P as [n d ts|n d ts u l x I P IH]; intros p H D F N; [contradiction|].
  cbn [ids] in D. pose proof D as D0. apply NoDup_cons_iff in D. destruct D as (_ & D).
  destruct (Nat.eq_dec x (rid u)) as [->|N'].
  - exists n, [n]. split; [exact (parent_feature_near h p n d ts u O H D0 F I)|]. split; [constructor|].
    destruct (fpath_head _ _ _ P) as (r & ->). exists r. reflexivity.
  - destruct (holds_near h p n d ts u H I) as (q & Hq).
    destruct (IH q Hq (near_one_nodup ts u D I) (near_feature ts u I) N') as (q' & l' & E & P' & r & ->).
    exists q', (n :: l'). split; [exact E|]. split; [econstructor; eauto|]. exists r. reflexivity.
Qed.

Lemma preorders_split us l u : preorders us l -> In u us -> exists a k b, l = a ++ k ++ b /\ preorder u k.
Proof.
  intros P. induction P as [|w ws l k P1 P2 IH]; intros I; [destruct I|]. destruct I as [->|I].
  - exists [], l, k. auto.
  - destruct (IH I) as (a & m & b & -> & Q). exists (l ++ a)%list, m, b. rewrite <- app_assoc. auto.
Qed.

Lemma before_weaken {A} (a k b : list A) x y : before k x y -> before (a ++ k ++ b) x y.
Proof.
  intros (u & v & w & ->). exists (a ++ u)%list, v, (w ++ b)%list. rewrite <- !app_assoc. simpl. rewrite <- !app_assoc. reflexivity.
Qed.

Lemma parent_before h : heap_ok h -> forall t lx x, fpath t lx x -> forall p l q,
  holds h p t -> NoDup (ids t) -> is_feature (rdata t) = true -> preorder t l -> x <> rid t ->
  parent_feature h x = Some (Some q) -> before l q x.
Proof.
  intros O t lx x P. induction P as [n d ts|n d ts u lx x I P IH]; intros p l q H D F Pl N E; [contradiction|].
  pose proof (preorder_nodup _ _ Pl F D) as Dl.
  inversion Pl as [? ? ? us l' Pu Su Ps]; subst.
  cbn [ids] in D. pose proof D as D0. apply NoDup_cons_iff in D. destruct D as (_ & D).
  assert (Iu := Permutation_in _ (Permutation_sym Pu) I).
  destruct (preorders_split us l' u Ps Iu) as (a & k & b & -> & Pk).
  destruct (Nat.eq_dec x (rid u)) as [->|N'].
  - rewrite (parent_feature_near h p n d ts u O H D0 F I) in E. injection E as <-.
    apply before_cons; [exact Dl|]. left. split; [reflexivity|].
    destruct (preorder_head _ _ Pk) as (r & ->). apply in_or_app. right. left. reflexivity.
  - destruct (holds_near h p n d ts u H I) as (q' & Hq).
    apply before_cons; [exact Dl|]. right. apply before_weaken.
    exact (IH q' k q Hq (near_one_nodup ts u D I) (near_feature ts u I) Pk N' E).
Qed.

Lemma iterate_parents_first ord h t l f p :
  is_order ord -> heap_ok h -> holds h None t -> NoDup (ids t) -> is_feature (rdata t) = true ->
  iterate ord (S (h_next h)) h (Some (rid t)) = Some l ->
  In f (feature_ids t) ->
  (f = rid t -> exists r, l = f :: r) /\ (parent_feature h f = Some (Some p) -> before l p f).
Proof.
  intros Or O H D F E I. pose proof (iterate_preorder ord h t l Or O H D F E) as P. split.
  - intros ->. exact (preorder_head _ _ P).
  - intros Ep. destruct (fpath_exists t f F I) as (lf & Pf).
    assert (N : f <> rid t). { intros ->. rewrite (parent_feature_root h t H) in Ep. discriminate. }
    exact (parent_before h O t lf f Pf None l p H D F P N Ep).
Qed.

Lemma comparison_is_iteration_order ord h t l a b :
  is_order ord -> heap_ok h -> holds h None t -> NoDup (ids t) -> is_feature (rdata t) = true ->
  distinct_siblings t -> iterate ord (S (h_next h)) h (Some (rid t)) = Some l ->
  In a (feature_ids t) -> In b (feature_ids t) ->
  exists r, feature_less h a b = Some r /\ (r = true <-> before l a b).
Proof.
  intros Or O H D F S E. apply feature_less_before; auto. exact (iterate_preorder ord h t l Or O H D F E).
Qed.

Lemma comparison_strict_total h t a b c :
  heap_ok h -> holds h None t -> NoDup (ids t) -> is_feature (rdata t) = true -> distinct_siblings t ->
  In a (feature_ids t) -> In b (feature_ids t) -> In c (feature_ids t) ->
  feature_less h a a = Some false /\
  (feature_less h a b = Some true -> feature_less h b c = Some true -> feature_less h a c = Some true) /\
  (a = b \/ feature_less h a b = Some true \/ feature_less h b a = Some true).
Proof.
  intros O H D F S Ia Ib Ic.
  destruct (iterate_tree (fun l => l) (fun l => Permutation_refl l) h t (Datatypes.S (h_next h)) O H D ltac:(lia)) as (l & _ & P).
  assert (Dl := preorder_nodup t l P F D).
  assert (L := fun x y => feature_less_before h t l x y O H D F S P).
  split; [|split].
  - destruct (L a a Ia Ia) as (r & E & B). rewrite E. destruct r; [|reflexivity].
    exfalso. exact (before_irrefl l a Dl (proj1 B eq_refl)).
  - destruct (L a b Ia Ib) as (r1 & E1 & B1). destruct (L b c Ib Ic) as (r2 & E2 & B2). destruct (L a c Ia Ic) as (r3 & E3 & B3).
    rewrite E1, E2, E3. intros Q1 Q2. injection Q1 as ->. injection Q2 as ->. f_equal. apply B3.
    exact (before_trans l a b c Dl (proj1 B1 eq_refl) (proj1 B2 eq_refl)).
  - destruct (L a b Ia Ib) as (r1 & E1 & B1). destruct (L b a Ib Ia) as (r2 & E2 & B2). rewrite E1, E2.
    assert (M : forall x, In x (feature_ids t) -> In x l).
    { intros x. apply (Permutation_in x (Permutation_sym (preorder_features t l P F))). }
    destruct (before_total l a b Dl (M a Ia) (M b Ib)) as [Q|[Q|Q]]; [auto| |].
    + right. left. f_equal. apply B1. exact Q.
    + right. right. f_equal. apply B2. exact Q.
Qed.

Lemma vector_in_iteration_order ord h t l vs :
  is_order ord -> heap_ok h -> holds h None t -> NoDup (ids t) -> is_feature (rdata t) = true ->
  distinct_siblings t -> iterate ord (S (h_next h)) h (Some (rid t)) = Some l -> incl vs (feature_ids t) ->
  exists r, fold_left (fun o v => let* x := o in vector_insert h x v) vs (Some []) = Some r /\
    Permutation r vs /\ StronglySorted (fun x y => x = y \/ before l x y) r.
Proof.
  intros Or O H D F S E. apply (vector_sorted h t l vs O H D F S). exact (iterate_preorder ord h t l Or O H D F E).
Qed.

Lemma children_are_nearest ord is_t h depth n l :
  is_order ord -> get_children ord is_t h depth n = Some l ->
  NoDup l /\
  forall x, In x l <-> exists k, nearest h is_t n k x /\ match depth with Some d => k <= d | None => True end.
Proof.
  intros Or E. unfold get_children in E. apply bind_some in E. destruct E as (k & E & Q). injection Q as <-.
  apply children_impl_spec in E. destruct E as (E & D). split.
  - apply (Permutation_NoDup (Permutation_sym (Or k))). apply D. constructor.
  - intros x. split.
    + intros I. apply (Permutation_in _ (Or k)) in I. apply E in I. destruct I as [[]|I]. exact I.
    + intros I. apply (Permutation_in _ (Permutation_sym (Or k))). apply E. right. exact I.
Qed.

Lemma children_impl_defined is_t h : forall fuel depth t p acc,
  holds h p t -> height t <= fuel -> exists l, children_impl fuel is_t h depth (rid t) acc = Some l.
Proof.
  induction fuel as [|k IH]; intros depth [n d ts] p acc H L; [simpl in L; lia|].
  assert (G : exists l, (let* c := h_cells h n in
       fold_left (fun o e => let* a := o in let* ce := h_cells h e in
            if is_t (n_data ce) then Some (set_insert e a)
            else children_impl k is_t h (option_map Nat.pred depth) e a)
            (n_edges c) (Some acc)) = Some l).
  { rewrite (holds_root _ _ _ _ _ H). cbn [bind n_edges].
    assert (K : forall t, In t ts -> holds h (Some n) t /\ height t <= k).
    { intros t It. split; [exact (holds_kid _ _ _ _ _ _ H It)|]. pose proof (height_kid n d ts t It). lia. }
    clear H L. revert acc. induction ts as [|t r R]; intros acc; [eexists; reflexivity|].
    destruct (K t (or_introl eq_refl)) as (Ht & Lt). cbn [map fold_left bind]. rewrite (holds_top _ _ _ Ht). cbn [bind n_data].
    assert (K' : forall u, In u r -> holds h (Some n) u /\ height u <= k) by (intros u I; apply K; right; exact I).
    destruct (is_t (rdata t)); [exact (R K' _)|].
    destruct (IH (option_map Nat.pred depth) t (Some n) acc Ht Lt) as (l & ->). exact (R K' l). }
  cbn [children_impl rid]. destruct depth as [[|dp]|]; [eexists; reflexivity|exact G|exact G].
Qed.

Lemma holds_subtree h t s p : holds h p t -> subtree s t -> exists q, holds h q s.
Proof.
  intros H S. revert p H. induction S as [|n d ts u I S IH]; intros p H; [exists p; exact H|].
  exact (IH _ (holds_kid _ _ _ _ _ _ H I)).
Qed.

Lemma subtree_height s t : subtree s t -> height s <= height t.
Proof.
  intros S. induction S as [|n d ts u I S IH]; [lia|]. pose proof (height_kid n d ts u I). lia.
Qed.

Lemma children_defined ord is_t h depth t p s :
  is_order ord -> heap_ok h -> holds h p t -> NoDup (ids t) -> subtree s t ->
  exists l, get_children ord is_t h depth (rid s) = Some l.
Proof.
  intros Or O H D S. destruct (holds_subtree h t s p H S) as (q & Hq). unfold get_children.
  destruct (children_impl_defined is_t h (Datatypes.S (h_next h)) depth s q [] Hq) as (l & E).
  - pose proof (subtree_height s t S). pose proof (height_ids t). pose proof (ids_length h p t O H D). lia.
  - rewrite E. eexists. reflexivity.
Qed.

(** ** Examples *)
Lemma plant_ok next t : Forall (fun i => i < next) (ids t) -> heap_ok (plant next t).
Proof.
  intros F i L. unfold plant in *. cbn [h_cells h_next] in *.
  destruct (find (fun e => Nat.eqb (fst e) i) (entries None t)) as [[j c]|] eqn:E; [|reflexivity].
  apply find_some in E. destruct E as (I & E). apply Nat.eqb_eq in E. simpl in E. subst j.
  rewrite Forall_forall in F. assert (J : In i (ids t)). { rewrite <- (entries_ids None t). apply (in_map fst _ _ I). }
  specialize (F i J). unfold nid in *; lia.
Qed.

Lemma plant_holds next t : NoDup (ids t) -> holds (plant next t) None t.
Proof.
  intros D i c I. unfold plant. cbn [h_cells]. rewrite <- (entries_ids None t) in D.
  induction (entries None t) as [|[j e] r IH]; [destruct I|]. cbn [map fst] in D. apply NoDup_cons_iff in D. destruct D as (N & D).
  cbn [find fst]. destruct I as [E|I].
  - injection E as -> ->. rewrite Nat.eqb_refl. reflexivity.
  - destruct (Nat.eqb_spec j i) as [->|_]; [exfalso; apply N; apply (in_map fst _ _ I)|]. exact (IH D I).
Qed.

Lemma tree1_nodup : NoDup (ids tree1).
Proof. repeat (constructor; [simpl; intuition discriminate|]). constructor. Qed.
Lemma tree2_nodup : NoDup (ids tree2).
Proof. repeat (constructor; [simpl; intuition discriminate|]). constructor. Qed.

Lemma example_tree1 :
  heap_ok heap1 /\ holds heap1 None tree1 /\ NoDup (ids tree1) /\
  iterate (@rev nid) 7 heap1 (Some 0) = Some [0; 1; 2; 5; 3] /\ parent_feature heap1 1 = Some (Some 0).
Proof.
  split; [apply plant_ok; repeat constructor; lia|]. split; [apply plant_holds; exact tree1_nodup|].
  split; [exact tree1_nodup|]. split; vm_compute; reflexivity.
Qed.

(** All parts of a tree. *)
Fixpoint parts (t : tree) : list tree := match t with Node _ _ ts => t :: flat_map parts ts end.
Lemma subtree_parts s t : subtree s t -> In s (parts t).
Proof.
  intros S. induction S as [|n d ts u I S IH]; [destruct s; left; reflexivity|].
  right. apply in_flat_map. exists u. auto.
Qed.

Lemma example_less1 :
  distinct_siblings tree1 /\ feature_less heap1 1 5 = Some true /\ feature_less heap1 5 3 = Some true /\
  feature_less heap1 5 2 = Some false.
Proof.
  split.
  - intros s S F. apply subtree_parts in S. simpl in S.
    repeat (destruct S as [<-|S]; [vm_compute; repeat (constructor; [simpl; intuition discriminate|]); constructor|]).
    destruct S.
  - repeat split; vm_compute; reflexivity.
Qed.

Lemma comparison_equal_names :
  exists h t, heap_ok h /\ holds h None t /\ NoDup (ids t) /\ is_feature (rdata t) = true /\
    exists a b c, In a (feature_ids t) /\ In b (feature_ids t) /\ In c (feature_ids t) /\
      feature_less h a b = Some false /\ feature_less h b a = Some false /\
      feature_less h b c = Some false /\ feature_less h c b = Some false /\
      feature_less h a c = Some true.
Proof.
  exists heap2, tree2. split; [apply plant_ok; repeat constructor; lia|]. split; [apply plant_holds; exact tree2_nodup|].
  split; [exact tree2_nodup|]. split; [reflexivity|]. exists 1, 2, 3.
  repeat split; try (vm_compute; reflexivity); simpl; tauto.
Qed.

Lemma comparison_other_trees :
  exists h a b c, heap_ok h /\
    feature_less h a b = Some true /\ feature_less h b c = Some true /\ feature_less h c a = Some true.
Proof.
  exists heap3, 1, 2, 0. split; [|repeat split; vm_compute; reflexivity].
  intros [|[|[|i]]] L; simpl in *; try lia. reflexivity.
Qed.

Lemma relationships_of_descendants :
  exists h t, heap_ok h /\ holds h None t /\ NoDup (ids t) /\
    child_relationships (fun l => l) h (rid t) = Some [2] /\
    (forall k, In k (kids t) -> is_feature (rdata k) = true).
Proof.
  set (t := Node 0 (rootd "root") [Node 1 (binary "A") [Node 2 (NRelationship ROr) [Node 3 (binary "B") []]]]).
  assert (D : NoDup (ids t)) by (repeat (constructor; [simpl; intuition discriminate|]); constructor).
  exists (plant 4 t), t. split; [apply plant_ok; repeat constructor; lia|]. split; [apply plant_holds; exact D|].
  split; [exact D|]. split; [vm_compute; reflexivity|]. intros k [<-|[]]. reflexivity.
Qed.
