(** Ordered insertion, depth-first iteration and feature comparison. *)
From Coq Require Import List Arith Bool Ascii Sorted Permutation Lia.
From Verif Require Import Text TextProofs FeatureTreeModel FeatureTreeSpec FeatureTreeProofs.
Import ListNotations.

(** ** Ordered insertion *)
Lemma upper_bound_spec (comp : nid -> option bool) (c : nid -> bool) (l : list nid) :
  (forall x, In x l -> comp x = Some (c x)) ->
  (forall i j x y, i < j -> nth_error l i = Some x -> nth_error l j = Some y -> c x = true -> c y = true) ->
  forall fuel first len,
    len < fuel -> first + len <= length l ->
    (forall i x, i < first -> nth_error l i = Some x -> c x = false) ->
    (forall i x, first + len <= i -> nth_error l i = Some x -> c x = true) ->
    exists r, upper_bound fuel comp l first len = Some r /\ r <= length l /\
      (forall i x, i < r -> nth_error l i = Some x -> c x = false) /\
      (forall i x, r <= i -> nth_error l i = Some x -> c x = true).
Proof.
  intros Def Part. induction fuel as [|k IH]; intros first len Lf Ll Lo Hi; [lia|].
  cbn [upper_bound]. destruct (Nat.eqb_spec len 0) as [Z|Z].
  { exists first. split; [reflexivity|]. split; [lia|]. split; [exact Lo|].
    intros i x L. apply Hi. lia. }
  pose proof (Nat.lt_div2 len ltac:(lia)) as Hd.
  destruct (nth_error l (first + Nat.div2 len)) as [x|] eqn:Nx.
  2:{ apply nth_error_None in Nx. lia. }
  cbn [bind]. rewrite (Def x (nth_error_In _ _ Nx)). cbn [bind]. destruct (c x) eqn:Cx.
  - apply IH; [lia|lia|exact Lo|]. intros i y L Ny.
    destruct (Nat.eq_dec i (first + Nat.div2 len)) as [->|N]; [rewrite Nx in Ny; injection Ny as <-; exact Cx|].
    apply (Part (first + Nat.div2 len) i x y); [lia|exact Nx|exact Ny|exact Cx].
  - apply IH; [lia|lia| |].
    + intros i y L Ny. destruct (c y) eqn:Cy; [|reflexivity].
      destruct (Nat.eq_dec i (first + Nat.div2 len)) as [->|N]; [rewrite Nx in Ny; injection Ny as <-; congruence|].
      rewrite (Part i (first + Nat.div2 len) y x) in Cx; [discriminate|lia|exact Ny|exact Nx|exact Cy].
    + intros i y L. apply Hi. lia.
Qed.

Lemma strongly_sorted_nth {A} (R : A -> A -> Prop) l i j x y :
  StronglySorted R l -> i < j -> nth_error l i = Some x -> nth_error l j = Some y -> R x y.
Proof.
  intros H. revert i j. induction H as [|a l H IH F]; intros i j L Nx Ny.
  - destruct i; discriminate.
  - destruct i as [|i]; destruct j as [|j]; try lia.
    + simpl in *. injection Nx as <-. rewrite Forall_forall in F. apply F. exact (nth_error_In _ _ Ny).
    + simpl in *. apply (IH i j); [lia|exact Nx|exact Ny].
Qed.

Lemma strongly_sorted_app {A} (R : A -> A -> Prop) l r :
  StronglySorted R (l ++ r) <-> StronglySorted R l /\ StronglySorted R r /\ (forall x y, In x l -> In y r -> R x y).
Proof.
  induction l as [|a l IH]; simpl.
  - split; [intros H; repeat split; [constructor|exact H|tauto]|tauto].
  - split.
    + intros H. inversion H as [|? ? H' F]; subst. apply IH in H'. destruct H' as (H1 & H2 & H3).
      rewrite Forall_app in F. destruct F as (F1 & F2). repeat split; [constructor; assumption|exact H2|].
      intros x y [->|I] J; [rewrite Forall_forall in F2; auto|auto].
    + intros (H1 & H2 & H3). inversion H1 as [|? ? H' F]; subst. constructor.
      * apply IH. repeat split; [exact H'|exact H2|]. intros x y I J. apply H3; [right; exact I|exact J].
      * apply Forall_app. split; [exact F|]. rewrite Forall_forall. intros y J. apply H3; [left; reflexivity|exact J].
Qed.

Section Insert.
Variables (comp : nid -> nid -> option bool) (c : nid -> nid -> bool) (S : nid -> Prop).
Hypothesis Def : forall x y, S x -> S y -> comp x y = Some (c x y).
Hypothesis Asym : forall x y, S x -> S y -> c x y = true -> c y x = false.
Hypothesis Neg : forall x y z, S x -> S y -> S z -> c x z = true -> c x y = true \/ c y z = true.

(** Not decreasing with respect to [c]. *)
Definition in_order (x y : nid) : Prop := c y x = false.

Lemma ordered_insert_spec l v :
  S v -> (forall x, In x l -> S x) -> StronglySorted in_order l ->
  exists r, ordered_insert comp l v = Some r /\ Permutation r (v :: l) /\ StronglySorted in_order r.
Proof.
  intros Sv Sl H. unfold ordered_insert.
  destruct (upper_bound_spec (comp v) (c v) l) with (fuel := Datatypes.S (length l)) (first := 0) (len := length l)
    as (r & E & L & Lo & Hi).
  - intros x I. apply Def; auto.
  - intros i j x y Lt Nx Ny Cx. pose proof (strongly_sorted_nth _ _ _ _ _ _ H Lt Nx Ny) as O. unfold in_order in O.
    destruct (Neg v y x Sv) as [K|K]; [apply Sl; exact (nth_error_In _ _ Ny)|apply Sl; exact (nth_error_In _ _ Nx)
      |exact Cx|exact K|congruence].
  - lia.
  - lia.
  - intros i x Lt. lia.
  - intros i x Ge N. simpl in Ge. apply nth_error_None in Ge. congruence.
  - rewrite E. cbn [bind]. eexists. split; [reflexivity|].
    assert (P : Permutation (firstn r l ++ v :: skipn r l) (v :: l)).
    { rewrite <- Permutation_middle. rewrite firstn_skipn. reflexivity. }
    split; [exact P|].
    rewrite <- (firstn_skipn r l) in H. apply strongly_sorted_app in H. destruct H as (H1 & H2 & H3).
    assert (F1 : forall x, In x (firstn r l) -> c v x = false /\ In x l).
    { intros x I. apply In_nth_error in I. destruct I as (i & N).
      assert (Lt : i < r). { assert (i < length (firstn r l)) by (apply nth_error_Some; congruence). rewrite firstn_length in *. lia. }
      assert (N' : nth_error l i = Some x).
      { rewrite <- (firstn_skipn r l). rewrite nth_error_app1; [exact N|]. apply nth_error_Some. congruence. }
      split; [exact (Lo i x Lt N')|exact (nth_error_In _ _ N')]. }
    assert (F2 : forall x, In x (skipn r l) -> c v x = true /\ In x l).
    { intros x I. apply In_nth_error in I. destruct I as (i & N).
      assert (N' : nth_error l (r + i) = Some x).
      { rewrite <- (firstn_skipn r l). rewrite nth_error_app2; rewrite firstn_length, Nat.min_l by lia; [|lia].
        replace (r + i - r) with i by lia. exact N. }
      split; [exact (Hi (r + i) x ltac:(lia) N')|exact (nth_error_In _ _ N')]. }
    apply strongly_sorted_app. split; [exact H1|]. split.
    + constructor; [exact H2|]. rewrite Forall_forall. intros y I. destruct (F2 y I) as (Cy & Iy).
      unfold in_order. apply Asym; auto.
    + intros x y I [<-|J].
      * destruct (F1 x I) as (Cx & _). exact Cx.
      * apply H3; assumption.
Qed.

Lemma ordered_inserts_spec vs : forall l,
  (forall v, In v vs -> S v) -> (forall x, In x l -> S x) -> StronglySorted in_order l ->
  exists r, fold_left (fun o v => let* l := o in ordered_insert comp l v) vs (Some l) = Some r /\
            Permutation r (l ++ vs) /\ StronglySorted in_order r.
Proof.
  induction vs as [|v vs IH]; intros l Sv Sl H.
  - exists l. rewrite app_nil_r. split; [reflexivity|]. split; [reflexivity|exact H].
  - cbn [fold_left bind]. destruct (ordered_insert_spec l v) as (r & E & P & O); [apply Sv; left; reflexivity|exact Sl|exact H|].
    rewrite E. destruct (IH r) as (q & F & Q & O'); [intros x I; apply Sv; right; exact I| |exact O|].
    + intros x I. apply (Permutation_in _ P) in I. destruct I as [<-|I]; [apply Sv; left; reflexivity|auto].
    + exists q. split; [exact F|]. split; [|exact O']. rewrite Q, P. simpl. apply Permutation_middle.
Qed.
End Insert.

(** ** Iteration *)
Lemma holds_tops h is_t : forall t p u, holds h p t -> In u (tops is_t t) -> exists q, holds h q u.
Proof.
  induction t as [n d ts IH] using tree_ind'. intros p u H. cbn [tops]. destruct (is_t d).
  - intros [<-|[]]. exists p. exact H.
  - intros I. apply in_flat_map in I. destruct I as (t & It & Iu). rewrite Forall_forall in IH.
    exact (IH t It _ u (holds_kid _ _ _ _ _ _ H It) Iu).
Qed.

Lemma holds_near h p n d ts u : holds h p (Node n d ts) -> In u (near ts) -> exists q, holds h q u.
Proof.
  intros H I. apply in_flat_map in I. destruct I as (t & It & Iu).
  exact (holds_tops h _ t _ u (holds_kid _ _ _ _ _ _ H It) Iu).
Qed.

Lemma near_feature ts u : In u (near ts) -> is_feature (rdata u) = true.
Proof. intros I. apply in_flat_map in I. destruct I as (t & _ & Iu). exact (proj2 (tops_subtree _ _ _ Iu)). Qed.

Lemma feature_ids_relationship t : is_feature (rdata t) = false -> feature_ids t = flat_map feature_ids (kids t).
Proof. destruct t as [n d ts]. simpl. intros ->. reflexivity. Qed.

(** The subtrees of the nearest features contain all features and no other nodes
    than the whole. *)
Lemma tops_feature_ids t : flat_map feature_ids (tops is_feature t) = feature_ids t.
Proof.
  induction t as [n d ts IH] using tree_ind'. cbn [tops]. destruct (is_feature d) eqn:E.
  - simpl. rewrite app_nil_r. reflexivity.
  - cbn [feature_ids]. rewrite E. cbn [app]. induction ts as [|t r R]; [reflexivity|].
    inversion IH as [|? ? I1 I2]; subst. cbn [flat_map]. rewrite flat_map_app, I1, R by exact I2. reflexivity.
Qed.
Lemma near_feature_ids ts : flat_map feature_ids (near ts) = flat_map feature_ids ts.
Proof.
  unfold near. induction ts as [|t r R]; [reflexivity|]. cbn [flat_map]. rewrite flat_map_app, tops_feature_ids, R. reflexivity.
Qed.

Lemma nodup_flat_map_parts {A B} (f g : A -> list B) (l : list A) :
  (forall a, In a l -> NoDup (f a) -> NoDup (g a)) ->
  (forall a, In a l -> incl (g a) (f a)) -> NoDup (flat_map f l) -> NoDup (flat_map g l).
Proof.
  induction l as [|a l IH]; intros H I D; [constructor|]. cbn [flat_map] in *. apply nodup_app in D.
  destruct D as (D1 & D2 & D3). apply nodup_app. split; [apply H; [left; reflexivity|exact D1]|]. split.
  - apply IH; [intros b Ib; apply H; right; exact Ib|intros b Ib; apply I; right; exact Ib|exact D2].
  - intros x Ix Jx. apply (D3 x); [apply (I a); [left; reflexivity|exact Ix]|].
    apply in_flat_map in Jx. destruct Jx as (b & Ib & Xb). apply in_flat_map. exists b.
    split; [exact Ib|]. apply (I b); [right; exact Ib|exact Xb].
Qed.

Lemma tops_incl is_t t : incl (flat_map ids (tops is_t t)) (ids t).
Proof.
  induction t as [n d ts IH] using tree_ind'. cbn [tops]. destruct (is_t d).
  - cbn [flat_map]. rewrite app_nil_r. apply incl_refl.
  - intros x I. apply in_flat_map in I. destruct I as (u & Iu & Xu). apply in_flat_map in Iu.
    destruct Iu as (t & It & Iu). rewrite Forall_forall in IH. right. apply in_flat_map. exists t.
    split; [exact It|]. apply (IH t It). apply in_flat_map. exists u. auto.
Qed.

Lemma flat_map_flat_map {A B C} (f : B -> list C) (g : A -> list B) l :
  flat_map f (flat_map g l) = flat_map (fun a => flat_map f (g a)) l.
Proof. induction l as [|a l IH]; [reflexivity|]. cbn [flat_map]. rewrite flat_map_app, IH. reflexivity. Qed.

Lemma tops_nodup is_t t : NoDup (ids t) -> NoDup (flat_map ids (tops is_t t)).
Proof.
  induction t as [n d ts IH] using tree_ind'. cbn [tops]. destruct (is_t d).
  - intros D. cbn [flat_map]. rewrite app_nil_r. exact D.
  - intros D. cbn [ids] in D. inversion D as [|? ? _ D']; subst.
    rewrite flat_map_flat_map. revert D'. apply nodup_flat_map_parts.
    + intros t It. rewrite Forall_forall in IH. exact (IH t It).
    + intros t _. apply tops_incl.
Qed.

Lemma near_nodup ts : NoDup (flat_map ids ts) -> NoDup (flat_map ids (near ts)).
Proof.
  unfold near. rewrite flat_map_flat_map. apply nodup_flat_map_parts.
  - intros t _. apply tops_nodup.
  - intros t _. apply tops_incl.
Qed.
Lemma near_incl ts : incl (flat_map ids (near ts)) (flat_map ids ts).
Proof.
  unfold near. rewrite flat_map_flat_map. intros x I. apply in_flat_map in I. destruct I as (t & It & I).
  apply in_flat_map. exists t. split; [exact It|]. exact (tops_incl _ _ _ I).
Qed.
Lemma near_length ts : length (flat_map ids (near ts)) <= length (flat_map ids ts).
Proof.
  induction ts as [|t r R]; [apply Nat.le_refl|]. unfold near in *. cbn [flat_map]. rewrite flat_map_app, !app_length.
  assert (L : length (flat_map ids (tops is_feature t)) <= length (ids t)).
  { clear. induction t as [n d ts IH] using tree_ind'. cbn [tops]. destruct (is_feature d).
    - cbn [flat_map]. rewrite app_nil_r. apply Nat.le_refl.
    - cbn [ids length]. apply le_S. induction ts as [|t r R]; [apply Nat.le_refl|].
      inversion IH as [|? ? I1 I2]; subst. cbn [flat_map]. rewrite flat_map_app, !app_length. specialize (R I2). lia. }
  lia.
Qed.

Lemma lower_at_tree h p t : holds h p t -> is_feature (rdata t) = true -> lower_at h (rid t) = Some (lname t).
Proof.
  intros H F. unfold lower_at, name_at, feature_at. rewrite (holds_top _ _ _ H). cbn [bind n_data].
  unfold lname, tname. destruct (rdata t) as [f|k]; [reflexivity|discriminate].
Qed.

Lemma rids_nodup us : NoDup (flat_map ids us) -> NoDup (map rid us).
Proof.
  induction us as [|u us IH]; intros D; [constructor|]. cbn [flat_map map] in *. apply nodup_app in D.
  destruct D as (_ & D2 & D3). constructor; [|auto]. intros I. apply in_map_iff in I. destruct I as (v & E & I).
  apply (D3 (rid u)); [apply rid_in_ids|]. apply in_flat_map. exists v. split; [exact I|]. rewrite <- E. apply rid_in_ids.
Qed.

Lemma strongly_sorted_rev {A} (R : A -> A -> Prop) l :
  StronglySorted R l -> StronglySorted (fun x y => R y x) (rev l).
Proof.
  induction l as [|a l IH]; intros H; [constructor|]. simpl. inversion H as [|? ? H' F]; subst.
  apply strongly_sorted_app. split; [auto|]. split; [repeat constructor|].
  intros x y I [<-|[]]. apply in_rev in I. rewrite Forall_forall in F. auto.
Qed.

Lemma strongly_sorted_map_inv {A B} (f : A -> B) (R : B -> B -> Prop) (R' : A -> A -> Prop) l :
  (forall x y, In x l -> In y l -> R (f x) (f y) -> R' x y) ->
  StronglySorted R (map f l) -> StronglySorted R' l.
Proof.
  induction l as [|a l IH]; intros K H; [constructor|]. simpl in H. inversion H as [|? ? H' F]; subst. constructor.
  - apply IH; [intros x y Ix Iy; apply K; right; assumption|exact H'].
  - rewrite Forall_forall in *. intros x I. apply K; [left; reflexivity|right; exact I|].
    apply F. apply in_map. exact I.
Qed.

Lemma push_all (visited sorted rest : list nid) :
  (forall x, In x sorted -> ~ In x visited) ->
  fold_left (fun s c => if mem c visited then s else c :: s) sorted rest = rev sorted ++ rest.
Proof.
  revert rest. induction sorted as [|x l IH]; intros rest N; [reflexivity|]. cbn [fold_left rev].
  rewrite (proj2 (mem_false x visited)) by (apply N; left; reflexivity).
  rewrite IH by (intros y I; apply N; right; exact I). rewrite <- app_assoc. reflexivity.
Qed.

Lemma preorders_app us vs l : preorders (us ++ vs) l -> exists k m, l = k ++ m /\ preorders us k /\ preorders vs m.
Proof.
  revert l. induction us as [|u us IH]; intros l H; simpl in H.
  - exists [], l. split; [reflexivity|]. split; [constructor|exact H].
  - inversion H as [|? ? l1 k1 P1 P2]; subst. destruct (IH _ P2) as (k & m & -> & K & M).
    exists (l1 ++ k), m. rewrite app_assoc. split; [reflexivity|]. split; [constructor; assumption|exact M].
Qed.

Section Ord.
Variable ord : list nid -> list nid.
Hypothesis Ord : is_order ord.

(** One step of the iterator at a feature of a tree. *)
Lemma dfs_next_tree h p n d ts rest visited :
  heap_ok h -> holds h p (Node n d ts) -> NoDup (ids (Node n d ts)) ->
  (forall x, In x (flat_map ids ts) -> ~ In x visited) ->
  exists us, Permutation us (near ts) /\ StronglySorted name_le us /\
    dfs_next ord h (Dfs (n :: rest) visited) = Some (Dfs (map rid us ++ rest) (set_insert n visited)).
Proof.
  intros O H D V. unfold dfs_next. cbn [d_frontier d_visited].
  unfold child_features. rewrite (get_children_tree ord is_feature h p n d ts O H D). cbn [bind].
  change (flat_map (tops is_feature) ts) with (near ts).
  destruct (Permutation_map_inv rid _ (Ord (map rid (near ts)))) as (vs & Ev & Pv).
  rewrite Ev.
  assert (L : forall u, In u vs -> lower_at h (rid u) = Some (lname u)).
  { intros u I. assert (I' : In u (near ts)) by exact (Permutation_in _ (Permutation_sym Pv) I).
    destruct (holds_near h p n d ts u H I') as (q & Hq). exact (lower_at_tree h q u Hq (near_feature ts u I')). }
  assert (Dv : NoDup (map rid vs)).
  { apply Permutation_NoDup with (l := map rid (near ts)); [apply Permutation_map; exact Pv|].
    apply rids_nodup. apply near_nodup. cbn [ids] in D. inversion D; assumption. }
  set (nm := fun i => match lower_at h i with Some s => s | None => [] end).
  assert (Nm : forall u, In u vs -> nm (rid u) = lname u) by (intros u I; unfold nm; rewrite (L u I); reflexivity).
  destruct (ordered_inserts_spec (name_greater h) (fun a b => text_ltb (nm b) (nm a)) (fun i => In i (map rid vs)))
    with (vs := map rid vs) (l := @nil nid) as (r & E & P & S).
  - intros x y Ix Iy. apply in_map_iff in Ix. apply in_map_iff in Iy. destruct Ix as (u & <- & Iu). destruct Iy as (v & <- & Iv).
    unfold name_greater. rewrite (L u Iu), (L v Iv). cbn [bind]. rewrite !Nm by assumption. reflexivity.
  - intros x y _ _ K. apply text_ltb_false. left. apply text_ltb_spec. exact K.
  - intros x y z _ _ _ K. apply text_ltb_spec in K.
    destruct (text_lt_total (nm y) (nm x)) as [A|[A|A]].
    + left. apply text_ltb_spec. exact A.
    + right. apply text_ltb_spec. rewrite A. exact K.
    + right. apply text_ltb_spec. exact (text_lt_trans _ _ _ K A).
  - auto.
  - intros x [].
  - constructor.
  - rewrite E. cbn [bind]. simpl in P.
    destruct (Permutation_map_inv rid _ P) as (ws & -> & Pw).
    exists (rev ws). split; [|split].
    + transitivity ws; [symmetry; apply Permutation_rev|]. transitivity vs; symmetry; assumption.
    + apply strongly_sorted_map_inv with (f := rid) (R := fun x y => in_order (fun a b => text_ltb (nm b) (nm a)) y x).
      * intros x y Ix Iy K. unfold in_order in K. apply in_rev in Ix. apply in_rev in Iy.
        apply (Permutation_in _ (Permutation_sym Pw)) in Ix. apply (Permutation_in _ (Permutation_sym Pw)) in Iy.
        rewrite !Nm in K by assumption. apply text_ltb_false in K. exact K.
      * rewrite map_rev. exact (strongly_sorted_rev _ _ S).
    + rewrite push_all.
      * rewrite map_rev. reflexivity.
      * intros x I J. apply in_map_iff in I. destruct I as (u & <- & Iu).
        apply (Permutation_in _ (Permutation_sym Pw)) in Iu. apply (Permutation_in _ (Permutation_sym Pv)) in Iu.
        assert (X : In (rid u) (flat_map ids ts)).
        { apply near_incl. apply in_flat_map. exists u. split; [exact Iu|apply rid_in_ids]. }
        apply in_set_insert in J. destruct J as [J|J]; [|exact (V _ X J)].
        cbn [ids] in D. apply NoDup_cons_iff in D. destruct D as (N & _). apply N. rewrite <- J. exact X.
Qed.

Lemma dfs_loop_tree h : heap_ok h -> forall fuel us visited,
  (forall u, In u us -> exists p, holds h p u) -> NoDup (flat_map ids us) ->
  (forall x, In x (flat_map ids us) -> ~ In x visited) -> length (flat_map ids us) < fuel ->
  exists l, dfs_loop ord fuel h (Dfs (map rid us) visited) (Dfs [] []) = Some l /\ preorders us l.
Proof.
  intros O. induction fuel as [|k IH]; intros us visited H D V L; [lia|].
  destruct us as [|[n d ts] us].
  { exists []. split; [reflexivity|constructor]. }
  cbn [dfs_loop map rid]. unfold dfs_equal. cbn [d_frontier bind].
  destruct (H _ (or_introl eq_refl)) as (p & Hp).
  cbn [flat_map] in D, V, L. pose proof D as D0. apply nodup_app in D. destruct D as (D1 & D2 & D3).
  destruct (dfs_next_tree h p n d ts (map rid us) visited O Hp D1) as (vs & P & S & E).
  { intros x I. apply V. apply in_app_iff. left. right. exact I. }
  rewrite E. cbn [bind]. rewrite <- map_app.
  assert (Pi : Permutation (flat_map ids (vs ++ us)) (flat_map ids (near ts) ++ flat_map ids us)).
  { rewrite flat_map_app. apply Permutation_app_tail. apply permutation_flat_map. exact P. }
  destruct (IH (vs ++ us) (set_insert n visited)) as (l & El & Pl).
  - intros u I. apply in_app_iff in I. destruct I as [I|I].
    + apply (Permutation_in _ P) in I. exact (holds_near h p n d ts u Hp I).
    + apply H. right. exact I.
  - apply (Permutation_NoDup (Permutation_sym Pi)). cbn [ids] in D1. inversion D1 as [|? ? _ D1']; subst.
    apply nodup_app. split; [apply near_nodup; exact D1'|]. split; [exact D2|].
    intros x Ix. apply D3. right. exact (near_incl ts x Ix).
  - intros x I J. apply (Permutation_in _ Pi) in I. apply in_app_iff in I. apply in_set_insert in J.
    destruct J as [->|J].
    + destruct I as [I|I].
      * cbn [ids] in D1. inversion D1 as [|? ? N _]; subst. apply N. exact (near_incl ts n I).
      * apply (D3 n); [left; reflexivity|exact I].
    + apply (V x); [|exact J]. apply in_app_iff. destruct I as [I|I]; [left; right; exact (near_incl ts x I)|right; exact I].
  - rewrite (Permutation_length Pi), app_length. rewrite app_length in L. cbn [ids length] in L.
    pose proof (near_length ts). lia.
  - rewrite El. cbn [bind]. destruct (preorders_app _ _ _ Pl) as (l1 & l2 & -> & P1 & P2).
    exists ((n :: l1) ++ l2). split; [reflexivity|]. constructor; [|exact P2].
    apply pre_node with (us := vs); assumption.
Qed.

Lemma parent_feature_root h t : holds h None t -> parent_feature h (rid t) = Some None.
Proof. intros H. unfold parent_feature. rewrite (holds_top _ _ _ H). reflexivity. Qed.

Lemma preorders_one u l : preorders [u] l -> preorder u l.
Proof. intros H. inversion H as [|? ? l1 k P1 P2]; subst. inversion P2; subst. rewrite app_nil_r. exact P1. Qed.

Lemma iterate_tree h t fuel :
  heap_ok h -> holds h None t -> NoDup (ids t) -> h_next h < fuel ->
  exists l, iterate ord fuel h (Some (rid t)) = Some l /\ preorder t l.
Proof.
  intros O H D L. unfold iterate. rewrite (parent_feature_root h t H). cbn [bind dfs_start].
  destruct (dfs_loop_tree h O fuel [t] []) as (l & E & P).
  - intros u [<-|[]]. exists None. exact H.
  - cbn [flat_map]. rewrite app_nil_r. exact D.
  - intros x _ [].
  - cbn [flat_map]. rewrite app_nil_r. pose proof (ids_length h None t O H D). lia.
  - exists l. split; [exact E|]. exact (preorders_one _ _ P).
Qed.
End Ord.

Scheme preorder_mut := Induction for preorder Sort Prop
  with preorders_mut := Induction for preorders Sort Prop.

Lemma preorder_features : forall t l, preorder t l -> is_feature (rdata t) = true -> Permutation l (feature_ids t).
Proof.
  intros t l P. induction P using preorder_mut with
    (P0 := fun us l _ => (forall u, In u us -> is_feature (rdata u) = true) -> Permutation l (flat_map feature_ids us)).
  - intros F. cbn [rdata] in F. cbn [feature_ids]. rewrite F. cbn [app]. constructor.
    rewrite IHP.
    + rewrite (permutation_flat_map feature_ids us (near ts)) by assumption. rewrite near_feature_ids. reflexivity.
    + intros u I. apply near_feature with (ts := ts). eapply Permutation_in; eassumption.
  - intros _. constructor.
  - intros F. cbn [flat_map]. apply Permutation_app.
    + apply IHP. apply F. left. reflexivity.
    + apply IHP0. intros v I. apply F. right. exact I.
Qed.

Lemma feature_ids_incl t : incl (feature_ids t) (ids t).
Proof.
  induction t as [n d ts IH] using tree_ind'. intros x I. cbn [feature_ids] in I. apply in_app_iff in I.
  destruct I as [I|I].
  - destruct (is_feature d); [|destruct I]. destruct I as [<-|[]]. left. reflexivity.
  - right. apply in_flat_map in I. destruct I as (t & It & I). apply in_flat_map. exists t. split; [exact It|].
    rewrite Forall_forall in IH. exact (IH t It x I).
Qed.
Lemma feature_ids_nodup t : NoDup (ids t) -> NoDup (feature_ids t).
Proof.
  induction t as [n d ts IH] using tree_ind'. intros D. cbn [ids feature_ids] in *. inversion D as [|? ? N D']; subst.
  assert (DF : NoDup (flat_map feature_ids ts)).
  { revert D'. apply nodup_flat_map_parts; [intros t It; rewrite Forall_forall in IH; exact (IH t It)|].
    intros t _. apply feature_ids_incl. }
  destruct (is_feature d); [|exact DF]. cbn [app]. constructor; [|exact DF].
  intros I. apply N. apply in_flat_map in I. destruct I as (t & It & I). apply in_flat_map. exists t.
  split; [exact It|]. exact (feature_ids_incl t n I).
Qed.

(** ** Comparison *)
(** The way from the top of a tree to a feature, over features. *)
Inductive fpath : tree -> list nid -> nid -> Prop :=
| path_here n d ts : fpath (Node n d ts) [n] n
| path_below n d ts u l x : In u (near ts) -> fpath u l x -> fpath (Node n d ts) (n :: l) x.

Lemma first_feature_up h : forall t q fuel u,
  holds h (Some q) t -> In u (tops is_feature t) -> height t <= fuel ->
  (exists c, h_cells h q = Some c /\ is_feature (n_data c) = true) ->
  exists c, h_cells h (rid u) = Some c /\ first_feature (S fuel) h (n_parent c) = Some (Some q).
Proof.
  induction t as [n d ts IH] using tree_ind'. intros q fuel u H I L (cq & Cq & Fq). cbn [tops] in I.
  destruct (is_feature d) eqn:E.
  - destruct I as [<-|[]]. exists (Cell d (Some q) (map rid ts)). split; [exact (holds_root _ _ _ _ _ H)|].
    cbn [first_feature n_parent]. rewrite Cq. cbn [bind]. rewrite Fq. reflexivity.
  - assert (G : forall t k v, In t ts -> In v (tops is_feature t) -> height t <= k ->
       exists c, h_cells h (rid v) = Some c /\ exists m, m <= k /\ first_feature (S k) h (n_parent c) = first_feature (S m) h (Some n) /\ k <= m + height t).
    { clear - H. intros t. revert n d ts q H. induction t as [m e us IH] using tree_ind'. intros n d ts q H k v It Iv L.
      cbn [tops] in Iv. pose proof (holds_kid _ _ _ _ _ _ H It) as Hm. destruct (is_feature e) eqn:E.
      - destruct Iv as [<-|[]]. exists (Cell e (Some n) (map rid us)). split; [exact (holds_root _ _ _ _ _ Hm)|].
        exists k. split; [lia|]. split; [reflexivity|]. lia.
      - apply in_flat_map in Iv. destruct Iv as (t & Jt & Iv). rewrite Forall_forall in IH.
        pose proof (height_kid m e us t Jt) as Ht.
        destruct (IH t Jt m e us n Hm k v Jt Iv ltac:(lia)) as (c & C & j & Lj & F & B).
        exists c. split; [exact C|]. rewrite F. cbn [first_feature]. rewrite (holds_root _ _ _ _ _ Hm). cbn [bind n_data n_parent]. rewrite E.
        destruct j as [|j]; [lia|]. exists j. split; [lia|]. split; [reflexivity|]. lia. }
    apply in_flat_map in I. destruct I as (t & It & Iu). pose proof (height_kid n d ts t It) as Ht.
    destruct (G t fuel u It Iu ltac:(lia)) as (c & C & m & Lm & F & B). exists c. split; [exact C|]. rewrite F.
    cbn [first_feature]. rewrite (holds_root _ _ _ _ _ H). cbn [bind n_data n_parent]. rewrite E.
    destruct m as [|m]; [lia|]. cbn [first_feature]. rewrite Cq. cbn [bind]. rewrite Fq. reflexivity.
Qed.

Lemma parent_feature_near h p n d ts u :
  heap_ok h -> holds h p (Node n d ts) -> NoDup (ids (Node n d ts)) -> is_feature d = true -> In u (near ts) ->
  parent_feature h (rid u) = Some (Some n).
Proof.
  intros O H D F I. apply in_flat_map in I. destruct I as (t & It & Iu).
  destruct (first_feature_up h t n (h_next h) u) as (c & C & E).
  - exact (holds_kid _ _ _ _ _ _ H It).
  - exact Iu.
  - pose proof (height_kid n d ts t It). pose proof (height_ids (Node n d ts)). pose proof (ids_length h p _ O H D). lia.
  - exists (Cell d p (map rid ts)). split; [exact (holds_root _ _ _ _ _ H)|exact F].
  - unfold parent_feature. rewrite C. cbn [bind]. exact E.
Qed.

Lemma near_one_nodup ts u : NoDup (flat_map ids ts) -> In u (near ts) -> NoDup (ids u).
Proof. intros D I. apply near_nodup in D. exact (nodup_flat_map_in _ _ _ D I). Qed.

Lemma trace_path h : heap_ok h -> forall t l x, fpath t l x -> forall p fuel acc,
  holds h p t -> NoDup (ids t) -> is_feature (rdata t) = true ->
  trace (length l + fuel) h (Some x) acc =
  (let* q := parent_feature h (rid t) in trace fuel h q (l ++ acc)).
Proof.
  intros O t l x P. induction P as [n d ts|n d ts u l x I P IH]; intros p fuel acc H D F.
  - reflexivity.
  - cbn [length]. replace (S (length l) + fuel) with (length l + S fuel) by lia.
    cbn [ids] in D. pose proof D as D0. apply NoDup_cons_iff in D. destruct D as (_ & D).
    destruct (holds_near h p n d ts u H I) as (q & Hq).
    rewrite (IH q (S fuel) acc Hq (near_one_nodup ts u D I) (near_feature ts u I)).
    rewrite (parent_feature_near h p n d ts u O H D0 F I). reflexivity.
Qed.

Lemma fpath_length t l x : fpath t l x -> length l <= height t.
Proof.
  intros P. induction P as [n d ts|n d ts u l x I P IH]; [simpl; lia|].
  assert (L : height u < height (Node n d ts)).
  { apply in_flat_map in I. destruct I as (t & It & Iu). pose proof (height_kid n d ts t It).
    assert (S1 : height u <= height t); [|lia]. clear - Iu. revert u Iu.
    induction t as [m e us IH] using tree_ind'. intros u I. cbn [tops] in I. destruct (is_feature e).
    - destruct I as [<-|[]]. lia.
    - apply in_flat_map in I. destruct I as (t & It & Iu). rewrite Forall_forall in IH.
      pose proof (height_kid m e us t It). pose proof (IH t It u Iu). lia. }
  simpl length. lia.
Qed.

Lemma trace_tree h t l x :
  heap_ok h -> holds h None t -> NoDup (ids t) -> is_feature (rdata t) = true -> fpath t l x ->
  trace (S (S (h_next h))) h (Some x) [] = Some l.
Proof.
  intros O H D F P. pose proof (fpath_length t l x P). pose proof (height_ids t). pose proof (ids_length h None t O H D).
  replace (S (S (h_next h))) with (length l + (S (h_next h) - length l + 1)) by lia.
  rewrite (trace_path h O t l x P None _ [] H D F). rewrite (parent_feature_root h t H). cbn [bind].
  rewrite app_nil_r. replace (S (h_next h) - length l + 1) with (S (S (h_next h) - length l)) by lia. reflexivity.
Qed.

(** Every feature has a way from the top, and it ends there. *)
Lemma fpath_exists t x : is_feature (rdata t) = true -> In x (feature_ids t) -> exists l, fpath t l x.
Proof.
  remember (height t) as k eqn:K. assert (L : height t <= k) by lia. clear K. revert t x L.
  induction k as [|k IH]; intros [n d ts] x L F I; [simpl in L; lia|].
  cbn [rdata] in F. cbn [feature_ids] in I. rewrite F in I. destruct I as [<-|I]; [exists [n]; constructor|].
  rewrite <- near_feature_ids in I. apply in_flat_map in I. destruct I as (u & Iu & Xu).
  destruct (IH u x) as (l & P).
  - pose proof (fpath_length (Node n d ts) (n :: [rid u]) (rid u)) as _.
    assert (height u < height (Node n d ts)).
    { clear - Iu. apply in_flat_map in Iu. destruct Iu as (t & It & Iu). pose proof (height_kid n d ts t It).
      assert (S1 : height u <= height t); [|lia]. clear - Iu. revert u Iu.
      induction t as [m e us IH] using tree_ind'. intros u I. cbn [tops] in I. destruct (is_feature e).
      - destruct I as [<-|[]]. lia.
      - apply in_flat_map in I. destruct I as (t & It & Iu). rewrite Forall_forall in IH.
        pose proof (height_kid m e us t It). pose proof (IH t It u Iu). lia. }
    lia.
  - exact (near_feature ts u Iu).
  - exact Xu.
  - exists (n :: l). econstructor; eauto.
Qed.

Lemma fpath_head t l x : fpath t l x -> exists r, l = rid t :: r.
Proof. intros P. destruct P; eexists; reflexivity. Qed.
Lemma fpath_in t l x : fpath t l x -> In x (ids t).
Proof.
  intros P. induction P as [n d ts|n d ts u l x I P IH]; [left; reflexivity|].
  right. apply near_incl. apply in_flat_map. exists u. auto.
Qed.
Lemma fpath_incl t l x y : fpath t l x -> In y l -> In y (ids t).
Proof.
  intros P. induction P as [n d ts|n d ts u l x I P IH]; [intros [<-|[]]; left; reflexivity|].
  intros [<-|J]; [left; reflexivity|]. right. apply near_incl. apply in_flat_map. exists u. auto.
Qed.
Lemma fpath_feature t l x y h p : fpath t l x -> holds h p t -> is_feature (rdata t) = true -> In y l ->
  exists q u, holds h q u /\ rid u = y /\ is_feature (rdata u) = true.
Proof.
  intros P. revert p. induction P as [n d ts|n d ts u l x I P IH]; intros p H F J.
  - destruct J as [<-|[]]. exists p, (Node n d ts). auto.
  - destruct J as [<-|J]; [exists p, (Node n d ts); auto|].
    destruct (holds_near h p n d ts u H I) as (q & Hq). exact (IH q Hq (near_feature ts u I) J).
Qed.

Lemma fpath_feature_ids t l x : fpath t l x -> is_feature (rdata t) = true -> In x (feature_ids t).
Proof.
  intros P. induction P as [m e us|m e us u l x I P IH]; intros F; cbn [feature_ids rdata] in *; rewrite F.
  - left. reflexivity.
  - right. rewrite <- near_feature_ids. apply in_flat_map. exists u. split; [exact I|].
    apply IH. exact (near_feature us u I).
Qed.

(** What the comparison computes from the two ways. *)
Definition path_less (h : heap) (la lb : list nid) : option bool :=
  match skip_common la lb with
  | ([], r) => Some (match r with [] => false | _ => true end)
  | (_, []) => Some false
  | (p :: _, q :: _) => let* u := lower_at h p in let* v := lower_at h q in Some (text_ltb u v)
  end.

Lemma feature_less_tree h t a b la lb :
  heap_ok h -> holds h None t -> NoDup (ids t) -> is_feature (rdata t) = true -> fpath t la a -> fpath t lb b ->
  feature_less h a b = path_less h la lb.
Proof.
  intros O H D F Pa Pb. unfold feature_less. rewrite (trace_tree h t la a O H D F Pa), (trace_tree h t lb b O H D F Pb).
  cbn [bind]. destruct (fpath_head _ _ _ Pa) as (ra & ->). destruct (fpath_head _ _ _ Pb) as (rb & ->).
  rewrite Nat.eqb_refl. reflexivity.
Qed.

Lemma before_cons {A} (n : A) l a b : NoDup (n :: l) -> before (n :: l) a b <-> (a = n /\ In b l) \/ before l a b.
Proof.
  intros D. split.
  - intros (x & y & z & E). destruct x as [|x0 x]; simpl in E; injection E as <- E.
    + left. split; [reflexivity|]. rewrite E. apply in_or_app. right. left. reflexivity.
    + right. exists x, y, z. exact E.
  - intros [(-> & I)|(x & y & z & ->)].
    + apply in_split in I. destruct I as (y & z & ->). exists [], y, z. reflexivity.
    + exists (n :: x), y, z. reflexivity.
Qed.

Lemma before_app {A} (l k : list A) a b :
  NoDup (l ++ k) ->
  before (l ++ k) a b <-> before l a b \/ before k a b \/ (In a l /\ In b k).
Proof.
  induction l as [|n l IH]; intros D.
  - simpl. split; [auto|]. intros [(x & y & z & E)|[H|([] & _)]]; [destruct x; discriminate|exact H].
  - simpl app in *. rewrite before_cons by exact D. apply NoDup_cons_iff in D. destruct D as (N & D).
    rewrite IH by exact D. rewrite before_cons.
    2:{ apply nodup_app in D. constructor; [|tauto]. intros I. apply N. apply in_or_app. auto. }
    simpl. rewrite in_app_iff. intuition; subst; auto.
Qed.

Lemma before_in {A} (l : list A) a b : before l a b -> In a l /\ In b l.
Proof. intros (x & y & z & ->). split; apply in_or_app; right; [left; reflexivity|right; apply in_or_app; right; left; reflexivity]. Qed.

Lemma before_trans {A} (l : list A) a b c : NoDup l -> before l a b -> before l b c -> before l a c.
Proof.
  induction l as [|n l IH]; intros D H K.
  - destruct H as (x & y & z & E). destruct x; discriminate.
  - rewrite before_cons in * by exact D. pose proof D as D0. apply NoDup_cons_iff in D. destruct D as (N & D).
    destruct H as [(-> & I)|H]; destruct K as [(-> & J)|K].
    + contradiction.
    + left. split; [reflexivity|]. exact (proj2 (before_in _ _ _ K)).
    + exfalso. apply N. exact (proj2 (before_in _ _ _ H)).
    + right. eauto.
Qed.

Lemma before_irrefl {A} (l : list A) a : NoDup l -> ~ before l a a.
Proof.
  induction l as [|n l IH]; intros D H.
  - destruct H as (x & y & z & E). destruct x; discriminate.
  - rewrite before_cons in H by exact D. apply NoDup_cons_iff in D. destruct D as (N & D).
    destruct H as [(-> & I)|H]; [contradiction|exact (IH D H)].
Qed.

Lemma before_total {A} (l : list A) a b : NoDup l -> In a l -> In b l -> a = b \/ before l a b \/ before l b a.
Proof.
  induction l as [|n l IH]; intros D I J; [destruct I|]. rewrite !before_cons by exact D.
  apply NoDup_cons_iff in D. destruct D as (N & D).
  destruct I as [->|I]; destruct J as [->|J]; auto. destruct (IH D I J) as [->|[H|H]]; auto.
Qed.

Lemma subtree_trans r s t : subtree r s -> subtree s t -> subtree r t.
Proof. intros R S. induction S as [|n d ts u I S IH]; [exact R|]. eapply sub_kid; eauto. Qed.

Lemma distinct_sub t s : distinct_siblings t -> subtree s t -> distinct_siblings s.
Proof. intros H S r R. apply H. exact (subtree_trans _ _ _ R S). Qed.

Lemma near_subtree n d ts u : In u (near ts) -> subtree u (Node n d ts).
Proof.
  intros I. apply in_flat_map in I. destruct I as (t & It & Iu). eapply sub_kid; [exact It|].
  exact (proj1 (tops_subtree _ _ _ Iu)).
Qed.

Lemma path_less_same h n la lb : path_less h (n :: la) (n :: lb) = path_less h la lb.
Proof. unfold path_less. cbn [skip_common]. rewrite Nat.eqb_refl. reflexivity. Qed.

Lemma fpath_near_unique n d ts u l x :
  NoDup (ids (Node n d ts)) -> In u (near ts) -> In x (ids u) -> fpath (Node n d ts) l x ->
  exists l', l = n :: l' /\ fpath u l' x.
Proof.
  intros D I X P. cbn [ids] in D. apply NoDup_cons_iff in D. destruct D as (N & D).
  assert (Dn := near_nodup ts D).
  inversion P as [? ? ?|? ? ? v l' ? Iv Pv]; subst.
  - exfalso. apply N. apply near_incl. apply in_flat_map. exists u. auto.
  - exists l'. split; [reflexivity|]. assert (E : u = v); [|subst; exact Pv].
    apply fpath_in in Pv. clear - Dn I Iv X Pv. induction (near ts) as [|w ws IH]; [destruct I|].
    cbn [flat_map] in Dn. apply nodup_app in Dn. destruct Dn as (D1 & D2 & D3).
    destruct I as [->|I]; destruct Iv as [->|Iv]; auto.
    + exfalso. apply (D3 x X). apply in_flat_map. exists v. auto.
    + exfalso. apply (D3 x Pv). apply in_flat_map. exists u. auto.
Qed.

Lemma preorder_head t l : preorder t l -> exists r, l = rid t :: r.
Proof. intros P. destruct P. eexists. reflexivity. Qed.

Lemma preorder_in t l x : preorder t l -> is_feature (rdata t) = true -> In x l -> In x (ids t).
Proof. intros P F I. apply feature_ids_incl. apply (Permutation_in x (preorder_features t l P F) I). Qed.
Lemma preorders_in us l x : preorders us l -> (forall u, In u us -> is_feature (rdata u) = true) -> In x l ->
  exists u, In u us /\ In x (feature_ids u).
Proof.
  intros P. induction P as [|u us l k P1 P2 IH]; intros F I; [destruct I|].
  apply in_app_iff in I. destruct I as [I|I].
  - exists u. split; [left; reflexivity|]. apply (Permutation_in x (preorder_features u l P1 (F u (or_introl eq_refl))) I).
  - destruct IH as (v & Iv & X); [intros v Iv; apply F; right; exact Iv|exact I|]. exists v. split; [right; exact Iv|exact X].
Qed.

Lemma preorder_nodup t l : preorder t l -> is_feature (rdata t) = true -> NoDup (ids t) -> NoDup l.
Proof.
  intros P F D. apply (Permutation_NoDup (Permutation_sym (preorder_features t l P F))).
  apply feature_ids_nodup. exact D.
Qed.

(** Comparing over the ways is standing before in the listing. *)
Lemma path_less_before h : forall t l, preorder t l -> forall p a b la lb,
  holds h p t -> NoDup (ids t) -> is_feature (rdata t) = true -> distinct_siblings t ->
  fpath t la a -> fpath t lb b -> a <> b ->
  exists r, path_less h la lb = Some r /\ (r = true <-> before l a b).
Proof.
  refine (preorder_mut
    (fun t l _ => forall p a b la lb,
       holds h p t -> NoDup (ids t) -> is_feature (rdata t) = true -> distinct_siblings t ->
       fpath t la a -> fpath t lb b -> a <> b ->
       exists r, path_less h la lb = Some r /\ (r = true <-> before l a b))
    (fun us l _ => forall a b u v la lb,
       (forall u, In u us -> exists p, holds h p u) -> NoDup (flat_map ids us) ->
       (forall u, In u us -> is_feature (rdata u) = true) ->
       (forall u, In u us -> distinct_siblings u) -> NoDup (map lname us) -> StronglySorted name_le us ->
       In u us -> In v us -> fpath u la a -> fpath v lb b -> a <> b ->
       exists r, path_less h la lb = Some r /\ (r = true <-> before l a b)) _ _ _).
  - intros n d ts us l p s p1 IHP.
    intros p0 a b la lb H D F S Pa Pb Ne.
    pose proof (preorder_nodup (Node n d ts) (n :: l) (pre_node n d ts us l p s p1) F D) as Dl.
    pose proof (before_cons n l a b Dl) as BC. cbn [ids] in D. pose proof D as D0. apply NoDup_cons_iff in D. destruct D as (N & D).
    assert (Fu : forall u, In u us -> is_feature (rdata u) = true).
    { intros u I. apply near_feature with (ts := ts). exact (Permutation_in _ p I). }
    inversion Pa as [? ? ?|? ? ? u la' ? Iu Pu]; subst.
    + inversion Pb as [? ? ?|? ? ? v lb' ? Iv Pv]; subst; [contradiction|].
      destruct (fpath_head _ _ _ Pv) as (r & ->). exists true. rewrite path_less_same, BC. split; [reflexivity|].
      split; [|auto]. intros _. left. split; [reflexivity|].
      assert (Fl : In b (feature_ids v)).
      { exact (fpath_feature_ids _ _ _ Pv (near_feature ts v Iv)). }
      clear - p p1 Iv Fl Fu. apply (Permutation_in _ (Permutation_sym p)) in Iv. clear p.
      induction p1 as [|u us l k P1 P2 IH]; [destruct Iv|]. apply in_app_iff. destruct Iv as [->|Iv].
      * left. apply (Permutation_in b (Permutation_sym (preorder_features v l P1 (Fu v (or_introl eq_refl)))) Fl).
      * right. apply IH; [intros w I; apply Fu; right; exact I|exact Iv].
    + inversion Pb as [? ? ?|? ? ? v lb' ? Iv Pv]; subst.
      * destruct (fpath_head _ _ _ Pu) as (r & ->). exists false. rewrite path_less_same, BC. split; [reflexivity|].
        split; [discriminate|]. intros [(E & _)|B]; [congruence|]. exfalso.
        apply before_in in B. destruct B as (_ & B). apply NoDup_cons_iff in Dl. destruct Dl as (Nl & _). contradiction.
      * rewrite path_less_same. destruct (IHP a b u v la' lb') as (r & E & B).
        -- intros w I. apply (holds_near h p0 n d ts w H). exact (Permutation_in _ p I).
        -- apply (Permutation_NoDup (Permutation_sym (permutation_flat_map ids us (near ts) p))). apply near_nodup. exact D.
        -- exact Fu.
        -- intros w I. apply (distinct_sub _ _ S). apply near_subtree. exact (Permutation_in _ p I).
        -- apply (Permutation_NoDup (Permutation_sym (Permutation_map lname p))). apply (S (Node n d ts)); [constructor|exact F].
        -- exact s.
        -- exact (Permutation_in _ (Permutation_sym p) Iu).
        -- exact (Permutation_in _ (Permutation_sym p) Iv).
        -- exact Pu.
        -- exact Pv.
        -- exact Ne.
        -- exists r. split; [exact E|]. rewrite B, BC. split; [auto|]. intros [(Ea & _)|B']; [|exact B'].
           exfalso. subst a. apply N. apply near_incl. apply in_flat_map. exists u. split; [exact Iu|exact (fpath_in _ _ _ Pu)].
  - intros a b u v la lb _ _ _ _ _ _ [].
  - intros w ws l k P1 IH1 P2 IH2 a b u v la lb H D F S N O Iu Iv Pu Pv Ne.
    cbn [flat_map] in D. pose proof D as D0. apply nodup_app in D. destruct D as (D1 & D2 & D3).
    assert (Fw := F w (or_introl eq_refl)).
    assert (Fs : forall x, In x ws -> is_feature (rdata x) = true) by (intros x I; apply F; right; exact I).
    assert (Dl : NoDup (l ++ k)).
    { apply nodup_app. split; [exact (preorder_nodup w l P1 Fw D1)|]. split.
      - clear - P2 D2 Fs. induction P2 as [|x ws l k P1 P2 IH]; [constructor|]. cbn [flat_map] in D2.
        apply nodup_app in D2. destruct D2 as (D1 & D2 & D3). apply nodup_app.
        split; [exact (preorder_nodup x l P1 (Fs x (or_introl eq_refl)) D1)|].
        split; [apply IH; [exact D2|intros y I; apply Fs; right; exact I]|].
        intros y I J. apply (preorder_in _ _ _ P1 (Fs x (or_introl eq_refl))) in I.
        destruct (preorders_in _ _ y P2 (fun z Iz => Fs z (or_intror Iz)) J) as (z & Iz & Xz).
        apply (D3 y I). apply in_flat_map. exists z. split; [exact Iz|exact (feature_ids_incl z y Xz)].
      - intros y I J. apply (preorder_in _ _ _ P1 Fw) in I.
        destruct (preorders_in _ _ y P2 Fs J) as (z & Iz & Xz).
        apply (D3 y I). apply in_flat_map. exists z. split; [exact Iz|exact (feature_ids_incl z y Xz)]. }
    cbn [map] in N. apply NoDup_cons_iff in N. destruct N as (N1 & N2).
    inversion O as [|? ? O1 O2]; subst. rewrite Forall_forall in O2.
    assert (Lx : forall x, In x (w :: ws) -> lower_at h (rid x) = Some (lname x)).
    { intros x I. destruct (H x I) as (q & Hq). exact (lower_at_tree h q x Hq (F x I)). }
    assert (Out : forall x lx y, In x ws -> fpath x lx y -> ~ In y l).
    { intros x lx y I Px J. apply (preorder_in _ _ _ P1 Fw) in J. apply (D3 y J). apply in_flat_map. exists x.
      split; [exact I|exact (fpath_in _ _ _ Px)]. }
    assert (Outw : forall lx y, fpath w lx y -> ~ In y k).
    { intros lx y Px J. destruct (preorders_in _ _ y P2 Fs J) as (z & Iz & Xz).
      apply (D3 y (fpath_in _ _ _ Px)). apply in_flat_map. exists z. split; [exact Iz|exact (feature_ids_incl z y Xz)]. }
    assert (Inw : forall lx y, fpath w lx y -> In y l).
    { intros lx y Px. apply (Permutation_in y (Permutation_sym (preorder_features w l P1 Fw))). exact (fpath_feature_ids _ _ _ Px Fw). }
    assert (Ins : forall x lx y, In x ws -> fpath x lx y -> In y k).
    { intros x lx y I Px. clear - P2 I Px Fs. induction P2 as [|z ws l k P1 P2 IH]; [destruct I|].
      apply in_app_iff. destruct I as [->|I].
      - left. apply (Permutation_in y (Permutation_sym (preorder_features x l P1 (Fs x (or_introl eq_refl))))).
        exact (fpath_feature_ids _ _ _ Px (Fs x (or_introl eq_refl))).
      - right. apply IH; [intros t It; apply Fs; right; exact It|exact I]. }
    assert (Cross : forall x, In x ws -> rid w <> rid x).
    { intros x I E. apply (D3 (rid w) (rid_in_ids w)). apply in_flat_map. exists x. split; [exact I|].
      rewrite E. apply rid_in_ids. }
    destruct Iu as [<-|Iu]; destruct Iv as [<-|Iv].
    + destruct (H w (or_introl eq_refl)) as (p & Hp).
      destruct (IH1 p a b la lb Hp D1 Fw (S w (or_introl eq_refl)) Pu Pv Ne) as (r & E & B).
      exists r. split; [exact E|]. rewrite B, (before_app l k a b Dl). split; [auto|].
      intros [B'|[B'|(_ & J)]]; [exact B'| |exfalso; exact (Outw _ _ Pv J)].
      apply before_in in B'. exfalso. exact (Outw _ _ Pu (proj1 B')).
    + destruct (fpath_head _ _ _ Pu) as (ra & ->). destruct (fpath_head _ _ _ Pv) as (rb & ->).
      exists true. split.
      * unfold path_less. cbn [skip_common]. rewrite (proj2 (Nat.eqb_neq _ _) (Cross v Iv)).
        rewrite (Lx w (or_introl eq_refl)), (Lx v (or_intror Iv)). cbn [bind]. f_equal. apply text_ltb_spec.
        destruct (O2 v Iv) as [Lt|Eq]; [exact Lt|]. exfalso. apply N1. rewrite Eq. apply in_map. exact Iv.
      * split; [|reflexivity]. intros _. apply before_app; [exact Dl|]. right. right.
        split; [exact (Inw _ _ Pu)|exact (Ins _ _ _ Iv Pv)].
    + destruct (fpath_head _ _ _ Pu) as (ra & ->). destruct (fpath_head _ _ _ Pv) as (rb & ->).
      exists false. split.
      * unfold path_less. cbn [skip_common]. rewrite (proj2 (Nat.eqb_neq _ _) (not_eq_sym (Cross u Iu))).
        rewrite (Lx w (or_introl eq_refl)), (Lx u (or_intror Iu)). cbn [bind]. f_equal. apply text_ltb_false.
        exact (O2 u Iu).
      * split; [discriminate|]. intros B. exfalso. apply before_app in B; [|exact Dl].
        destruct B as [B|[B|(J & _)]].
        -- exact (Out _ _ _ Iu Pu (proj1 (before_in _ _ _ B))).
        -- exact (Outw _ _ Pv (proj2 (before_in _ _ _ B))).
        -- exact (Out _ _ _ Iu Pu J).
    + destruct (IH2 a b u v la lb) as (r & E & B); try assumption.
      * intros x I. apply H. right. exact I.
      * intros x I. apply S. right. exact I.
      * exists r. split; [exact E|]. rewrite B, (before_app l k a b Dl). split; [auto|].
        intros [B'|[B'|(J & _)]]; [|exact B'|exfalso; exact (Out _ _ _ Iu Pu J)].
        exfalso. exact (Out _ _ _ Iu Pu (proj1 (before_in _ _ _ B'))).
Qed.

Lemma path_less_refl h l : path_less h l l = Some false.
Proof.
  unfold path_less. assert (E : skip_common l l = ([], [])); [|rewrite E; reflexivity].
  induction l as [|x l IH]; [reflexivity|]. simpl. rewrite Nat.eqb_refl. exact IH.
Qed.

Lemma feature_less_before h t l a b :
  heap_ok h -> holds h None t -> NoDup (ids t) -> is_feature (rdata t) = true -> distinct_siblings t ->
  preorder t l -> In a (feature_ids t) -> In b (feature_ids t) ->
  exists r, feature_less h a b = Some r /\ (r = true <-> before l a b).
Proof.
  intros O H D F S P Ia Ib. destruct (fpath_exists t a F Ia) as (la & Pa). destruct (fpath_exists t b F Ib) as (lb & Pb).
  rewrite (feature_less_tree h t a b la lb O H D F Pa Pb). destruct (Nat.eq_dec a b) as [<-|N].
  - assert (E : la = lb).
    { clear - Pa Pb D. revert lb Pb. induction Pa as [n d ts|n d ts u l x I P IH]; intros lb Pb.
      - inversion Pb as [? ? ?|? ? ? v l' ? Iv Pv]; subst; [reflexivity|]. exfalso.
        cbn [ids] in D. apply NoDup_cons_iff in D. destruct D as (N & _). apply N. apply near_incl.
        apply in_flat_map. exists v. split; [exact Iv|exact (fpath_in _ _ _ Pv)].
      - destruct (fpath_near_unique n d ts u lb x D I (fpath_in _ _ _ P) Pb) as (l' & -> & P').
        f_equal. apply IH; [|exact P']. cbn [ids] in D. apply NoDup_cons_iff in D.
        exact (near_one_nodup ts u (proj2 D) I). }
    subst lb. exists false. split; [apply path_less_refl|]. split; [discriminate|].
    intros B. exfalso. exact (before_irrefl l a (preorder_nodup t l P F D) B).
  - exact (path_less_before h t l P None a b la lb H D F S Pa Pb N).
Qed.

Lemma iterate_features ord h t :
  is_order ord -> heap_ok h -> holds h None t -> NoDup (ids t) -> is_feature (rdata t) = true ->
  exists l, (forall fuel, h_next h < fuel -> iterate ord fuel h (Some (rid t)) = Some l) /\
    preorder t l /\ Permutation l (feature_ids t) /\ NoDup l.
Proof.
  intros Or O H D F. destruct (iterate_tree ord Or h t (S (h_next h)) O H D ltac:(lia)) as (l & E & P).
  exists l. split; [|split; [exact P|split; [exact (preorder_features t l P F)|exact (preorder_nodup t l P F D)]]].
  assert (M : forall fuel d e r, dfs_loop ord fuel h d e = Some r -> forall fuel', fuel <= fuel' -> dfs_loop ord fuel' h d e = Some r).
  { clear. induction fuel as [|k IH]; intros d e r E fuel' L; [discriminate|]. destruct fuel' as [|k']; [lia|].
    cbn [dfs_loop] in *. apply bind_some in E. destruct E as (b & Eb & E). rewrite Eb. cbn [bind].
    destruct b; [exact E|]. destruct (d_frontier d) as [|f fs]; [discriminate|]. apply bind_some in E.
    destruct E as (d' & Ed & E). rewrite Ed. cbn [bind]. apply bind_some in E. destruct E as (q & Eq & E).
    rewrite (IH d' e q Eq k') by lia. exact E. }
  intros fuel L. unfold iterate in *. apply bind_some in E. destruct E as (e & Ee & E). rewrite Ee. cbn [bind].
  apply (M _ _ _ _ E). lia.
Qed.

Lemma vector_sorted h t l vs :
  heap_ok h -> holds h None t -> NoDup (ids t) -> is_feature (rdata t) = true -> distinct_siblings t ->
  preorder t l -> incl vs (feature_ids t) ->
  exists r, fold_left (fun o v => let* l := o in vector_insert h l v) vs (Some []) = Some r /\
    Permutation r vs /\ StronglySorted (fun x y => x = y \/ before l x y) r.
Proof.
  intros O H D F S P I. assert (Dl := preorder_nodup t l P F D).
  set (c := fun x y => match feature_less h x y with Some b => b | None => false end).
  assert (C : forall x y, In x (feature_ids t) -> In y (feature_ids t) ->
    feature_less h x y = Some (c x y) /\ (c x y = true <-> before l x y)).
  { intros x y Ix Iy. destruct (feature_less_before h t l x y O H D F S P Ix Iy) as (r & E & B).
    unfold c. rewrite E. auto. }
  assert (M : forall x, In x (feature_ids t) -> In x l).
  { intros x. apply (Permutation_in x (Permutation_sym (preorder_features t l P F))). }
  destruct (ordered_inserts_spec (feature_less h) c (fun x => In x (feature_ids t))) with (vs := vs) (l := @nil nid)
    as (r & E & Pr & Sr).
  - intros x y Ix Iy. exact (proj1 (C x y Ix Iy)).
  - intros x y Ix Iy K. apply (proj2 (C x y Ix Iy)) in K. apply not_true_iff_false. intros K'.
    apply (proj2 (C y x Iy Ix)) in K'. exact (before_irrefl l x Dl (before_trans l x y x Dl K K')).
  - intros x y z Ix Iy Iz K. apply (proj2 (C x z Ix Iz)) in K.
    destruct (before_total l x y Dl (M x Ix) (M y Iy)) as [->|[B|B]].
    + right. apply (proj2 (C y z Iy Iz)). exact K.
    + left. apply (proj2 (C x y Ix Iy)). exact B.
    + right. apply (proj2 (C y z Iy Iz)). exact (before_trans l y x z Dl B K).
  - exact I.
  - intros x [].
  - constructor.
  - exists r. split; [exact E|]. split; [exact Pr|]. simpl in Pr.
    rewrite <- (map_id r). rewrite <- (map_id r) in Sr.
    apply strongly_sorted_map_inv with (f := fun x : nid => x) (R := in_order c).
    + intros x y Ix Iy K. rewrite map_id in Ix, Iy. apply (Permutation_in _ Pr) in Ix. apply (Permutation_in _ Pr) in Iy.
      apply I in Ix. apply I in Iy. unfold in_order in K.
      destruct (before_total l x y Dl (M x Ix) (M y Iy)) as [->|[B|B]]; [auto|auto|].
      apply (proj2 (C y x Iy Ix)) in B. congruence.
    + rewrite !map_id. rewrite map_id in Sr. exact Sr.
Qed.
