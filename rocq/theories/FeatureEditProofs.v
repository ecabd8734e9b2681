(** Editing trees and the heaps that hold them. *)
From Coq Require Import List ZArith Arith Bool Ascii Permutation Lia.
From Verif Require Import Text TextProofs ConstraintModel SourceRangeModel FeatureTreeModel FeatureTreeSpec FeatureTreeProofs
  FeatureTransactionModel FeatureEditSpec.
Import ListNotations.

(** ** Heaps *)
Lemma h_set_cells h i c j : h_cells (h_set h i c) j = if Nat.eqb j i then c else h_cells h j.
Proof. reflexivity. Qed.
Lemma h_set_same h i c : h_cells (h_set h i c) i = c.
Proof. rewrite h_set_cells, Nat.eqb_refl. reflexivity. Qed.
Lemma h_set_other h i c j : j <> i -> h_cells (h_set h i c) j = h_cells h j.
Proof. intros N. rewrite h_set_cells. apply Nat.eqb_neq in N. rewrite N. reflexivity. Qed.

Lemma set_parent_some h i p c :
  h_cells h i = Some c -> set_parent h i p = Some (h_set h i (Some (Cell (n_data c) p (n_edges c)))).
Proof. intros C. unfold set_parent, h_modify. rewrite C. reflexivity. Qed.
Lemma add_edge_some h p i c :
  h_cells h p = Some c ->
  add_edge h p i = Some (h_set h p (Some (Cell (n_data c) (n_parent c) (set_insert i (n_edges c))))).
Proof. intros C. unfold add_edge, h_modify. rewrite C. reflexivity. Qed.
Lemma remove_edge_some h p i c :
  h_cells h p = Some c ->
  remove_edge h p i = Some (h_set h p (Some (Cell (n_data c) (n_parent c) (set_remove i (n_edges c))))).
Proof. intros C. unfold remove_edge, h_modify. rewrite C. reflexivity. Qed.

Lemma h_set_ok h i c : heap_ok h -> i < h_next h -> heap_ok (h_set h i c).
Proof.
  intros O L j J. cbn [h_next h_set] in J. rewrite h_set_other by lia. apply O. exact J.
Qed.
Lemma heap_ok_live h i c : heap_ok h -> h_cells h i = Some c -> i < h_next h.
Proof.
  intros O C. destruct (le_lt_dec (h_next h) i) as [L|L]; [|exact L]. rewrite (O i L) in C. discriminate.
Qed.
Lemma heap_ok_ext h h' : heap_ok h -> h_next h <= h_next h' ->
  (forall j, h_next h <= j -> h_cells h' j = h_cells h j) -> heap_ok h'.
Proof. intros O L E j J. rewrite E by lia. apply O. lia. Qed.

Lemma holds_ext h h' q t :
  holds h q t -> (forall i, In i (ids t) -> h_cells h' i = h_cells h i) -> holds h' q t.
Proof.
  intros H E i c I. rewrite E; [apply H; exact I|].
  rewrite <- (entries_ids q t). apply in_map_iff. exists (i, c). split; [reflexivity|exact I].
Qed.

(** ** Subtrees *)
Lemma subtree_trans a b c : subtree a b -> subtree b c -> subtree a c.
Proof. intros A B. induction B as [|n d ts t I B IH]; [exact A|]. eapply sub_kid; eauto. Qed.
Lemma subtree_kid n d ts t : In t ts -> subtree t (Node n d ts).
Proof. intros I. eapply sub_kid; [exact I|constructor]. Qed.
Lemma subtree_ids s t x : subtree s t -> In x (ids s) -> In x (ids t).
Proof. intros H. induction H as [|n d ts t I H IH]; [auto|]. intros X. eapply ids_kid; eauto. Qed.
Lemma ids_subtree x t : In x (ids t) -> exists s, subtree s t /\ rid s = x.
Proof.
  induction t as [n d ts IH] using tree_ind'. intros [<-|I].
  - exists (Node n d ts). split; [constructor|reflexivity].
  - apply in_flat_map in I. destruct I as (t & It & I). rewrite Forall_forall in IH.
    destruct (IH t It I) as (s & S1 & E). exists s. split; [eapply sub_kid; eauto|exact E].
Qed.
Lemma subtree_nodup s t : subtree s t -> NoDup (ids t) -> NoDup (ids s).
Proof.
  intros H. induction H as [|n d ts t I H IH]; [auto|]. intros D. apply IH.
  cbn [ids] in D. apply NoDup_cons_iff in D. destruct D as (_ & D). eapply nodup_flat_map_in; eauto.
Qed.
Lemma rid_in_kids t ts : In t ts -> In (rid t) (flat_map ids ts).
Proof. intros I. apply in_flat_map. exists t. split; [exact I|apply rid_in_ids]. Qed.

Lemma subtree_top s n d ts : NoDup (ids (Node n d ts)) -> subtree s (Node n d ts) -> rid s = n -> s = Node n d ts.
Proof.
  intros D H E. inversion H as [|n0 d0 ts0 t I H' E0]; [reflexivity|]. subst.
  cbn [ids] in D. apply NoDup_cons_iff in D. destruct D as (N & _). exfalso. apply N.
  apply in_flat_map. exists t. split; [exact I|]. eapply subtree_ids; [exact H'|apply rid_in_ids].
Qed.

Lemma subtree_unique t a b : NoDup (ids t) -> subtree a t -> subtree b t -> rid a = rid b -> a = b.
Proof.
  revert a b. induction t as [n d ts IH] using tree_ind'. intros a b D A B E.
  destruct (Nat.eq_dec (rid a) n) as [Ea|Na].
  - rewrite (subtree_top a n d ts D A Ea). rewrite (subtree_top b n d ts D B) by (rewrite <- E; exact Ea). reflexivity.
  - inversion A as [|n0 d0 ts0 ta Ia A' Ea0]; [subst a; exfalso; apply Na; reflexivity|].
    inversion B as [|n1 d1 ts1 tb Ib B' Eb0]; [subst b; exfalso; apply Na; exact E|]. subst.
    cbn [ids] in D. apply NoDup_cons_iff in D. destruct D as (_ & D). rewrite Forall_forall in IH.
    assert (ta = tb) as <-.
    { destruct (in_split _ _ Ia) as (l1 & l2 & ->). rewrite in_app_iff in Ib. cbn [In] in Ib.
      pose proof (subtree_ids _ _ _ A' (rid_in_ids a)) as Xa.
      pose proof (subtree_ids _ _ _ B' (rid_in_ids b)) as Xb. rewrite <- E in Xb.
      rewrite flat_map_app in D. cbn [flat_map] in D.
      apply nodup_app in D. destruct D as (_ & D & X1). apply nodup_app in D. destruct D as (_ & _ & X2).
      destruct Ib as [Ib|[Ib|Ib]]; [exfalso|exact Ib|exfalso].
      - apply (X1 (rid a)); [apply in_flat_map; eauto|apply in_or_app; left; exact Xa].
      - apply (X2 (rid a)); [exact Xa|apply in_flat_map; eauto]. }
    apply (IH ta Ia); auto. eapply nodup_flat_map_in; eauto.
Qed.

(** A node other than the top is the child of some node. *)
Lemma subtree_parent s t : subtree s t -> s = t \/ exists q, subtree q t /\ In s (kids q).
Proof.
  intros H. induction H as [|n d ts t I H IH]; [left; reflexivity|]. right. destruct IH as [->|(q & Q1 & Q2)].
  - exists (Node n d ts). split; [constructor|exact I].
  - exists q. split; [eapply sub_kid; eauto|exact Q2].
Qed.

Lemma holds_sub h o t s : holds h o t -> subtree s t -> exists q, holds h q s.
Proof.
  intros H S1. revert o H. induction S1 as [|n d ts t I S1 IH]; intros o H; [exists o; exact H|].
  apply (IH (Some n)). eapply holds_kid; eauto.
Qed.
Lemma holds_sub_kid h o t q s : holds h o t -> subtree q t -> In s (kids q) -> holds h (Some (rid q)) s.
Proof.
  intros H Q I. destruct (holds_sub h o t q H Q) as (p & P). destruct q as [n d ts]. eapply holds_kid; eauto.
Qed.

(** ** Editing *)
Lemma edit_absent p g t : ~ In p (ids t) -> edit p g t = t.
Proof.
  induction t as [n d ts IH] using tree_ind'. cbn [ids edit]. intros N.
  destruct (Nat.eqb_spec n p) as [E|E]; [exfalso; apply N; left; exact E|]. f_equal.
  rewrite <- (map_id ts) at 2. apply map_ext_in. intros t I. rewrite Forall_forall in IH. apply (IH t I).
  intros X. apply N. right. apply in_flat_map. eauto.
Qed.

Lemma edit_top p g t : rid t = p -> edit p g t = g t.
Proof. destruct t as [n d ts]. cbn [rid edit]. intros ->. rewrite Nat.eqb_refl. reflexivity. Qed.

(** Around the edited node nothing changes. *)
Lemma edit_zip t : forall o s, NoDup (ids t) -> subtree s t ->
  exists q X Y, (s = t -> q = o) /\ (forall u, subtree u t -> In s (kids u) -> q = Some (rid u)) /\
    entries o t = X ++ entries q s ++ Y /\
    (forall g, rid (g s) = rid s ->
      rid (edit (rid s) g t) = rid t /\ entries o (edit (rid s) g t) = X ++ entries q (g s) ++ Y).
Proof.
  induction t as [n d ts IH] using tree_ind'. intros o s D S1.
  destruct (Nat.eq_dec (rid s) n) as [E|N].
  - pose proof (subtree_top s n d ts D S1 E) as ->. exists o, [], []. split; [reflexivity|]. split; [|split].
    + intros u U K. exfalso.
      assert (In n (flat_map ids (kids u))) as X by (apply rid_in_kids in K; exact K).
      destruct (Nat.eq_dec (rid u) n) as [Eu|Nu].
      * rewrite (subtree_top u n d ts D U Eu) in X. cbn [kids] in X. cbn [ids] in D.
        apply NoDup_cons_iff in D. tauto.
      * inversion U as [|n0 d0 ts0 t I U' E0]; [subst u; apply Nu; reflexivity|]. subst.
        cbn [ids] in D. apply NoDup_cons_iff in D. destruct D as (D & _). apply D. apply in_flat_map. exists t.
        split; [exact I|]. eapply subtree_ids; [exact U'|]. destruct u as [nu du tu]. right. exact X.
    + cbn [app]. rewrite app_nil_r. reflexivity.
    + intros g G. cbn [edit rid]. rewrite Nat.eqb_refl. cbn [app]. rewrite app_nil_r. split; [exact G|reflexivity].
  - inversion S1 as [|n0 d0 ts0 t I S2 E0]; [subst s; exfalso; apply N; reflexivity|]. subst.
    pose proof D as D0. cbn [ids] in D. apply NoDup_cons_iff in D. destruct D as (Nn & D). rewrite Forall_forall in IH.
    destruct (IH t I (Some n) s (nodup_flat_map_in _ _ _ D I) S2) as (q & X & Y & Q1 & Q2 & E1 & E2).
    destruct (in_split _ _ I) as (l1 & l2 & El). subst ts.
    exists q, ((n, Cell d o (map rid (l1 ++ t :: l2))) :: flat_map (entries (Some n)) l1 ++ X), (Y ++ flat_map (entries (Some n)) l2).
    split; [|split; [|split]].
    + intros ->. exfalso. apply N. reflexivity.
    + intros u U K. destruct (Nat.eq_dec (rid u) n) as [Eu|Nu].
      * pose proof (subtree_top u n d _ D0 U Eu) as ->. cbn [kids rid] in *.
        destruct (Nat.eq_dec (rid s) (rid t)) as [Es|Ns].
        -- assert (s = t) as -> by (destruct t as [nt dt tt]; apply (subtree_top s nt dt tt); [eapply nodup_flat_map_in; [exact D|exact I]|exact S2|exact Es]).
           apply Q1. reflexivity.
        -- exfalso. rewrite in_app_iff in K. cbn [In] in K.
           pose proof (subtree_ids _ _ _ S2 (rid_in_ids s)) as Xs.
           rewrite flat_map_app in D. cbn [flat_map] in D. apply nodup_app in D. destruct D as (_ & D & X1).
           apply nodup_app in D. destruct D as (_ & _ & X2). destruct K as [K|[K|K]].
           ++ apply (X1 (rid s)); [apply rid_in_kids; exact K|apply in_or_app; left; exact Xs].
           ++ subst s. apply Ns. reflexivity.
           ++ apply (X2 (rid s)); [exact Xs|apply rid_in_kids; exact K].
      * inversion U as [|n1 d1 ts1 t1 I1 U' E0]; [subst u; exfalso; apply Nu; reflexivity|]. subst.
        apply (Q2 u); [|exact K].
        assert (subtree s t1) as S3 by (eapply subtree_trans; [|exact U']; destruct u; apply subtree_kid; exact K).
        pose proof (subtree_ids _ _ _ S2 (rid_in_ids s)) as Xs.
        pose proof (subtree_ids _ _ _ S3 (rid_in_ids s)) as Xt.
        rewrite flat_map_app in D. cbn [flat_map] in D. apply nodup_app in D. destruct D as (_ & D & X1).
        apply nodup_app in D. destruct D as (_ & _ & X2). rewrite in_app_iff in I1. cbn [In] in I1. destruct I1 as [I1|[I1|I1]].
        -- exfalso. apply (X1 (rid s)); [apply in_flat_map; eauto|apply in_or_app; left; exact Xs].
        -- subst t1. exact U'.
        -- exfalso. apply (X2 (rid s)); [exact Xs|apply in_flat_map; eauto].
    + cbn [entries]. rewrite flat_map_app. cbn [flat_map]. rewrite E1. cbn [app]. rewrite <- !app_assoc. reflexivity.
    + intros g G. destruct (E2 g G) as (R & E3). cbn [edit]. destruct (Nat.eqb_spec n (rid s)) as [Ens|_]; [exfalso; apply N; congruence|].
      assert (map (edit (rid s) g) (l1 ++ t :: l2) = l1 ++ edit (rid s) g t :: l2) as M.
      { pose proof (subtree_ids _ _ _ S2 (rid_in_ids s)) as Xs.
        rewrite flat_map_app in D. cbn [flat_map] in D. apply nodup_app in D. destruct D as (_ & D & X1).
        apply nodup_app in D. destruct D as (_ & _ & X2). rewrite map_app. cbn [map]. f_equal; [|f_equal].
        - rewrite <- (map_id l1) at 2. apply map_ext_in. intros x Ix. apply edit_absent. intros Y0.
          apply (X1 (rid s)); [apply in_flat_map; eauto|apply in_or_app; left; exact Xs].
        - rewrite <- (map_id l2) at 2. apply map_ext_in. intros x Ix. apply edit_absent. intros Y0.
          apply (X2 (rid s)); [exact Xs|apply in_flat_map; eauto]. }
      rewrite M. split; [reflexivity|]. cbn [entries]. rewrite flat_map_app. cbn [flat_map]. rewrite E3.
      rewrite !map_app. cbn [map]. rewrite R. cbn [app]. rewrite <- !app_assoc. reflexivity.
Qed.

(** ** What a tree consists of *)
Definition name_entry (e : nid * node) : list (text * nid) :=
  match n_data (snd e) with NFeature f => [(f_name f, fst e)] | NRelationship _ => [] end.
Definition group_entry (e : nid * node) : list nid :=
  match n_data (snd e) with NFeature _ => [] | NRelationship _ => [fst e] end.
Definition root_entry (e : nid * node) : list nid :=
  match n_data (snd e) with
  | NFeature f => if is_root_kind f then [fst e] else []
  | NRelationship _ => []
  end.

Lemma flat_map_flat_map {A B C} (f : A -> list B) (g : B -> list C) l :
  flat_map g (flat_map f l) = flat_map (fun a => flat_map g (f a)) l.
Proof. induction l as [|a l IH]; [reflexivity|]. cbn [flat_map]. rewrite flat_map_app, IH. reflexivity. Qed.
Lemma flat_map_ext_in {A B} (f g : A -> list B) l : (forall a, In a l -> f a = g a) -> flat_map f l = flat_map g l.
Proof.
  induction l as [|a l IH]; [reflexivity|]. intros E. cbn [flat_map]. rewrite E by (left; reflexivity).
  rewrite IH; [reflexivity|]. intros b I. apply E. right. exact I.
Qed.

Lemma named_entries q t : named t = flat_map name_entry (entries q t).
Proof.
  revert q. induction t as [n d ts IH] using tree_ind'. intros q. cbn [named entries flat_map]. f_equal.
  rewrite flat_map_flat_map. apply flat_map_ext_in. intros t I. rewrite Forall_forall in IH. apply (IH t I).
Qed.
Lemma groups_entries q t : groups t = flat_map group_entry (entries q t).
Proof.
  revert q. induction t as [n d ts IH] using tree_ind'. intros q. cbn [groups entries flat_map]. f_equal.
  rewrite flat_map_flat_map. apply flat_map_ext_in. intros t I. rewrite Forall_forall in IH. apply (IH t I).
Qed.
Lemma roots_entries q t : roots t = flat_map root_entry (entries q t).
Proof.
  revert q. induction t as [n d ts IH] using tree_ind'. intros q. cbn [roots entries flat_map]. f_equal.
  rewrite flat_map_flat_map. apply flat_map_ext_in. intros t I. rewrite Forall_forall in IH. apply (IH t I).
Qed.

Lemma permutation_mid {A} (X Y Z : list A) : Permutation (X ++ Y ++ Z) (Y ++ (X ++ Z)).
Proof. rewrite !app_assoc. apply Permutation_app_tail. apply Permutation_app_comm. Qed.

Lemma edit_frame o t s : NoDup (ids t) -> subtree s t ->
  exists q I A G R, (s = t -> q = o) /\ (forall u, subtree u t -> In s (kids u) -> q = Some (rid u)) /\
    Permutation (ids t) (ids s ++ I) /\ Permutation (named t) (named s ++ A) /\
    Permutation (groups t) (groups s ++ G) /\ Permutation (roots t) (roots s ++ R) /\
    (forall h, holds h o t -> holds h q s) /\
    (forall g, rid (g s) = rid s ->
      rid (edit (rid s) g t) = rid t /\
      Permutation (ids (edit (rid s) g t)) (ids (g s) ++ I) /\
      Permutation (named (edit (rid s) g t)) (named (g s) ++ A) /\
      Permutation (groups (edit (rid s) g t)) (groups (g s) ++ G) /\
      Permutation (roots (edit (rid s) g t)) (roots (g s) ++ R) /\
      (forall h h', holds h o t -> (forall i, In i I -> h_cells h' i = h_cells h i) -> holds h' q (g s) ->
         holds h' o (edit (rid s) g t))).
Proof.
  intros D S1. destruct (edit_zip t o s D S1) as (q & X & Y & Q1 & Q2 & E1 & E2).
  exists q, (map fst X ++ map fst Y), (flat_map name_entry X ++ flat_map name_entry Y),
    (flat_map group_entry X ++ flat_map group_entry Y), (flat_map root_entry X ++ flat_map root_entry Y).
  split; [exact Q1|]. split; [exact Q2|].
  assert (forall u v, entries o u = X ++ entries q v ++ Y ->
    Permutation (ids u) (ids v ++ map fst X ++ map fst Y) /\
    Permutation (named u) (named v ++ flat_map name_entry X ++ flat_map name_entry Y) /\
    Permutation (groups u) (groups v ++ flat_map group_entry X ++ flat_map group_entry Y) /\
    Permutation (roots u) (roots v ++ flat_map root_entry X ++ flat_map root_entry Y)) as Z.
  { intros u v E. rewrite <- (entries_ids o u), <- (entries_ids q v), (named_entries o u), (named_entries q v),
      (groups_entries o u), (groups_entries q v), (roots_entries o u), (roots_entries q v), E.
    rewrite !map_app, !flat_map_app. repeat split; apply permutation_mid. }
  destruct (Z t s E1) as (Z1 & Z2 & Z3 & Z4). repeat (split; [assumption|]). split.
  - intros h H i c I. apply H. rewrite E1. apply in_or_app. right. apply in_or_app. left. exact I.
  - intros g Rg. destruct (E2 g Rg) as (Rt & E3). split; [exact Rt|].
    destruct (Z _ _ E3) as (Z1' & Z2' & Z3' & Z4'). repeat (split; [assumption|]).
    intros h h' H F K i c I. rewrite E3 in I. apply in_app_or in I. destruct I as [I|I].
    + rewrite F; [apply H; rewrite E1; apply in_or_app; left; exact I|].
      apply in_or_app. left. apply in_map_iff. exists (i, c). split; [reflexivity|exact I].
    + apply in_app_or in I. destruct I as [I|I]; [apply K; exact I|].
      rewrite F; [apply H; rewrite E1; apply in_or_app; right; apply in_or_app; right; exact I|].
      apply in_or_app. right. apply in_map_iff. exists (i, c). split; [reflexivity|exact I].
Qed.

Lemma grouped_sub s t : subtree s t -> grouped t -> grouped s.
Proof.
  intros H. induction H as [|n d ts t I H IH]; [auto|]. intros G. apply IH.
  inversion G as [n0 f ts0 L F E|n0 k ts0 L F E]; subst; rewrite Forall_forall in F; apply (F t I).
Qed.

Lemma rdata_edit p g t : (forall s, is_feature (rdata (g s)) = is_feature (rdata s)) ->
  is_feature (rdata (edit p g t)) = is_feature (rdata t).
Proof. intros E. destruct t as [n d ts]. cbn [edit]. destruct (Nat.eqb n p); [apply E|reflexivity]. Qed.

Lemma own_groups_edit p g ts : (forall s, is_feature (rdata (g s)) = is_feature (rdata s)) ->
  length (own_groups (map (edit p g) ts)) = length (own_groups ts).
Proof.
  intros E. induction ts as [|t ts IH]; [reflexivity|]. cbn [map own_groups filter]. unfold is_relationship.
  rewrite (rdata_edit p g t E). destruct (is_feature (rdata t)); cbn [negb]; [exact IH|]. cbn [length]. f_equal. exact IH.
Qed.

(** [g] is only applied at [s]; it is given by its effect there. *)
Lemma grouped_edit t s g : NoDup (ids t) -> subtree s t -> grouped t ->
  is_feature (rdata (g s)) = is_feature (rdata s) -> grouped (g s) -> grouped (edit (rid s) g t).
Proof.
  intros D S1 G E K.
  assert (edit (rid s) g t = edit (rid s) (fun u => if Nat.eqb (rid u) (rid s) then g s else u) t) as ->.
  { assert (forall u, subtree u t -> edit (rid s) g u = edit (rid s) (fun u => if Nat.eqb (rid u) (rid s) then g s else u) u) as H.
    { intros u. induction u as [n d ts IH] using tree_ind'. intros U. cbn [edit].
      destruct (Nat.eqb_spec n (rid s)) as [En|Nn].
      - assert (Node n d ts = s) as Es by (apply (subtree_unique t); auto). rewrite Es, Nat.eqb_refl. reflexivity.
      - f_equal. apply map_ext_in. intros u I. rewrite Forall_forall in IH. apply (IH u I).
        eapply subtree_trans; [apply subtree_kid; exact I|exact U]. }
    apply H. constructor. }
  assert (forall u, subtree u t -> grouped u ->
    is_feature (rdata (edit (rid s) (fun u => if Nat.eqb (rid u) (rid s) then g s else u) u)) = is_feature (rdata u) /\
    grouped (edit (rid s) (fun u => if Nat.eqb (rid u) (rid s) then g s else u) u)) as H.
  { intros u. induction u as [n d ts IH] using tree_ind'. intros U Gu. cbn [edit].
    destruct (Nat.eqb_spec n (rid s)) as [En|Nn].
    - assert (Node n d ts = s) as Es by (apply (subtree_unique t); auto). rewrite Es, Nat.eqb_refl.
      split; [exact E|exact K].
    - split; [reflexivity|].
      assert (forall v, In v ts ->
        is_feature (rdata (edit (rid s) (fun u => if Nat.eqb (rid u) (rid s) then g s else u) v)) = is_feature (rdata v) /\
        grouped (edit (rid s) (fun u => if Nat.eqb (rid u) (rid s) then g s else u) v)) as KK.
      { intros v I. rewrite Forall_forall in IH. apply (IH v I).
        - eapply subtree_trans; [apply subtree_kid; exact I|exact U].
        - eapply grouped_sub; [apply subtree_kid; exact I|exact Gu]. }
      inversion Gu as [n0 f ts0 L F Ex|n0 k ts0 L F Ex]; subst.
      + apply grouped_feature.
        * enough (length (own_groups (map (edit (rid s) (fun u => if Nat.eqb (rid u) (rid s) then g s else u)) ts)) = length (own_groups ts)) by lia.
          clear - KK. induction ts as [|v ts IH]; [reflexivity|]. cbn [map own_groups filter]. unfold is_relationship.
          destruct (KK v (or_introl eq_refl)) as (Ev & _). rewrite Ev.
          assert (length (own_groups (map (edit (rid s) (fun u => if Nat.eqb (rid u) (rid s) then g s else u)) ts)) = length (own_groups ts)) as IH'
            by (apply IH; intros w I; apply KK; right; exact I).
          destruct (is_feature (rdata v)); cbn [negb]; [exact IH'|]. cbn [length]. f_equal. exact IH'.
        * apply Forall_forall. intros v I. apply in_map_iff in I. destruct I as (w & <- & I). apply (KK w I).
      + apply grouped_relationship.
        * apply Forall_forall. intros v I. apply in_map_iff in I. destruct I as (w & <- & I).
          destruct (KK w I) as (-> & _). rewrite Forall_forall in L. apply (L w I).
        * apply Forall_forall. intros v I. apply in_map_iff in I. destruct I as (w & <- & I). apply (KK w I). }
  apply (H t (sub_refl t) G).
Qed.

(** ** Names *)
Lemma find_name_in s l i : NoDup (map fst l) -> (find_name s l = Some i <-> In (s, i) l).
Proof.
  induction l as [|(k, j) l IH]; cbn [find_name map fst]; intros D.
  - split; [discriminate|intros []].
  - apply NoDup_cons_iff in D. destruct D as (N & D). destruct (text_eqb k s) eqn:E.
    + apply text_eqb_eq in E. subst k. split.
      * intros H. injection H as <-. left. reflexivity.
      * intros [H|H]; [injection H as <-; reflexivity|]. exfalso. apply N. apply in_map_iff. exists (s, i). auto.
    + apply text_eqb_neq in E. rewrite IH by exact D. split; [intros H; right; exact H|].
      intros [H|H]; [injection H as -> ->; exfalso; apply E; reflexivity|exact H].
Qed.
Lemma find_name_none s l : find_name s l = None <-> ~ In s (map fst l).
Proof.
  induction l as [|(k, j) l IH]; cbn [find_name map fst].
  - split; [intros _ []|reflexivity].
  - destruct (text_eqb k s) eqn:E.
    + apply text_eqb_eq in E. split; [discriminate|]. intros N. exfalso. apply N. left. exact E.
    + apply text_eqb_neq in E. rewrite IH. cbn [In]. tauto.
Qed.

Lemma named_subtree s i t : In (s, i) (named t) <->
  exists u f, subtree u t /\ rid u = i /\ rdata u = NFeature f /\ f_name f = s.
Proof.
  induction t as [n d ts IH] using tree_ind'. rewrite Forall_forall in IH. cbn [named]. rewrite in_app_iff, in_flat_map. split.
  - intros [H|(t & It & H)].
    + destruct d as [f|k]; [|destruct H]. destruct H as [H|[]]. injection H as <- <-.
      exists (Node n (NFeature f) ts), f. split; [constructor|]. auto.
    + apply (IH t It) in H. destruct H as (u & f & U & R). exists u, f. split; [eapply sub_kid; eauto|exact R].
  - intros (u & f & U & R & Df & Nf). inversion U as [|n0 d0 ts0 t I U' E0]; subst.
    + left. cbn [rdata] in Df. subst d. left. reflexivity.
    + right. exists t. split; [exact I|]. apply (IH t I). exists u, f. auto.
Qed.
Lemma groups_subtree i t : In i (groups t) <->
  exists u k, subtree u t /\ rid u = i /\ rdata u = NRelationship k.
Proof.
  induction t as [n d ts IH] using tree_ind'. rewrite Forall_forall in IH. cbn [groups]. rewrite in_app_iff, in_flat_map. split.
  - intros [H|(t & It & H)].
    + destruct d as [f|k]; [destruct H|]. destruct H as [<-|[]].
      exists (Node n (NRelationship k) ts), k. split; [constructor|]. auto.
    + apply (IH t It) in H. destruct H as (u & f & U & R). exists u, f. split; [eapply sub_kid; eauto|exact R].
  - intros (u & f & U & R & Df). inversion U as [|n0 d0 ts0 t I U' E0]; subst.
    + left. cbn [rdata] in Df. subst d. left. reflexivity.
    + right. exists t. split; [exact I|]. apply (IH t I). exists u, f. auto.
Qed.
Lemma roots_subtree i t : In i (roots t) <->
  exists u f, subtree u t /\ rid u = i /\ rdata u = NFeature f /\ f_kind f = FRoot.
Proof.
  induction t as [n d ts IH] using tree_ind'. rewrite Forall_forall in IH. cbn [roots]. rewrite in_app_iff, in_flat_map. split.
  - intros [H|(t & It & H)].
    + destruct d as [f|k]; [|destruct H]. destruct (is_root_kind f) eqn:K; [|destruct H]. destruct H as [<-|[]].
      exists (Node n (NFeature f) ts), f. split; [constructor|]. repeat split. unfold is_root_kind in K.
      destruct (f_kind f); congruence.
    + apply (IH t It) in H. destruct H as (u & f & U & R). exists u, f. split; [eapply sub_kid; eauto|exact R].
  - intros (u & f & U & R & Df & Kf). inversion U as [|n0 d0 ts0 t I U' E0]; subst.
    + left. cbn [rdata] in Df. subst d. unfold is_root_kind. rewrite Kf. left. reflexivity.
    + right. exists t. split; [exact I|]. apply (IH t I). exists u, f. auto.
Qed.

Lemma ids_named_groups t : Permutation (ids t) (map snd (named t) ++ groups t).
Proof.
  rewrite <- (entries_ids None t), (named_entries None t), (groups_entries None t).
  induction (entries None t) as [|(i, c) l IH]; [constructor|]. cbn [map flat_map fst].
  unfold name_entry, group_entry at 1. cbn [fst snd]. destruct (n_data c) as [f|k]; cbn [app map snd].
  - constructor. exact IH.
  - rewrite IH. apply Permutation_middle.
Qed.

Section Represented.
Context {h : heap} {m : fmodel} {t : tree} (R : represents h m t).

Lemma rep_keys : NoDup (map fst (m_features m)).
Proof.
  eapply Permutation_NoDup; [apply Permutation_map; apply Permutation_sym; apply (rep_features _ _ _ R)|].
  apply (rep_names _ _ _ R).
Qed.
Lemma rep_find s i : get_feature m s = Some i <-> In (s, i) (named t).
Proof.
  unfold get_feature. rewrite find_name_in by exact rep_keys. split; apply Permutation_in.
  - apply (rep_features _ _ _ R).
  - apply Permutation_sym. apply (rep_features _ _ _ R).
Qed.
Lemma rep_find_none s : get_feature m s = None <-> ~ In s (map fst (named t)).
Proof.
  unfold get_feature. rewrite find_name_none.
  split; intros N I; apply N; eapply Permutation_in; try exact I; apply Permutation_map;
    [apply Permutation_sym|]; apply (rep_features _ _ _ R).
Qed.
Lemma rep_feature_node i : In i (map snd (m_features m)) <->
  exists s f, subtree s t /\ rid s = i /\ rdata s = NFeature f.
Proof.
  rewrite in_map_iff. split.
  - intros ((s & j) & E & I). cbn [snd] in E. subst j.
    eapply Permutation_in in I; [|apply (rep_features _ _ _ R)]. apply named_subtree in I.
    destruct I as (u & f & U & Ru & Df & _). exists u, f. auto.
  - intros (u & f & U & Ru & Df). exists (f_name f, i). split; [reflexivity|].
    eapply Permutation_in; [apply Permutation_sym; apply (rep_features _ _ _ R)|].
    apply named_subtree. exists u, f. auto.
Qed.
Lemma rep_node i : In i (nodes m) <-> In i (ids t).
Proof.
  unfold nodes. rewrite in_app_iff. split; intros I.
  - eapply Permutation_in; [apply Permutation_sym; apply ids_named_groups|]. apply in_or_app. destruct I as [I|I].
    + left. eapply Permutation_in; [apply Permutation_map; apply (rep_features _ _ _ R)|exact I].
    + right. eapply Permutation_in; [apply (rep_groups _ _ _ R)|exact I].
  - eapply Permutation_in in I; [|apply ids_named_groups]. apply in_app_or in I. destruct I as [I|I].
    + left. eapply Permutation_in; [apply Permutation_map; apply Permutation_sym; apply (rep_features _ _ _ R)|exact I].
    + right. eapply Permutation_in; [apply Permutation_sym; apply (rep_groups _ _ _ R)|exact I].
Qed.
Lemma rep_cell s : subtree s t -> exists q, h_cells h (rid s) = Some (Cell (rdata s) q (map rid (kids s))).
Proof.
  intros S1. destruct (holds_sub h None t s (rep_holds _ _ _ R) S1) as (q & H). exists q. apply holds_top. exact H.
Qed.
Lemma rep_kid q s : subtree q t -> In s (kids q) ->
  h_cells h (rid s) = Some (Cell (rdata s) (Some (rid q)) (map rid (kids s))).
Proof. intros Q I. apply holds_top. eapply holds_sub_kid; eauto. apply (rep_holds _ _ _ R). Qed.
Lemma rep_top : h_cells h (rid t) = Some (Cell (rdata t) None (map rid (kids t))).
Proof. apply holds_top. apply (rep_holds _ _ _ R). Qed.
Lemma rep_below i : In i (ids t) -> i < h_next h.
Proof. intros I. eapply ids_below; [apply (rep_ok _ _ _ R)|apply (rep_holds _ _ _ R)|exact I]. Qed.
Lemma rep_fresh : ~ In (h_next h) (ids t).
Proof. intros I. apply rep_below in I. lia. Qed.
Lemma rep_resolve r i : ref_ok m r -> resolve m r = Some i ->
  exists s f, subtree s t /\ rid s = i /\ rdata s = NFeature f.
Proof.
  intros O E. destruct r as [s|n]; cbn [resolve ref_ok] in *.
  - apply rep_find in E. apply named_subtree in E. destruct E as (u & f & U & Ru & Df & _). exists u, f. auto.
  - injection E as <-. apply rep_feature_node. exact O.
Qed.
Lemma rep_resolve_node r i : node_ok m r -> resolve m r = Some i -> In i (ids t).
Proof.
  intros O E. destruct r as [s|n]; cbn [resolve node_ok] in *.
  - apply rep_find in E. apply named_subtree in E. destruct E as (u & f & U & Ru & Df & _).
    subst i. eapply subtree_ids; [exact U|apply rid_in_ids].
  - injection E as <-. apply rep_node. exact O.
Qed.
Lemma rep_top_data : exists f, rdata t = NFeature f /\ f_kind f = FRoot.
Proof.
  assert (In (rid t) (roots t)) as I by (rewrite (rep_roots _ _ _ R); left; reflexivity).
  apply roots_subtree in I. destruct I as (u & f & U & Ru & Df & Kf).
  destruct t as [n d ts]. cbn [rid] in Ru. pose proof (subtree_top u n d ts (rep_ids _ _ _ R) U Ru) as ->.
  exists f. auto.
Qed.
Lemma rep_other_kind s f : subtree s t -> rdata s = NFeature f -> rid s <> rid t -> f_kind f <> FRoot.
Proof.
  intros S1 Df N K. assert (In (rid s) (roots t)) as I by (apply roots_subtree; exists s, f; auto).
  rewrite (rep_roots _ _ _ R) in I. destruct I as [E|[]]. apply N. symmetry. exact E.
Qed.
End Represented.
