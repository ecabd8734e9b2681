(** What is written for a feature. *)
From Coq Require Import List ZArith NArith Arith Bool Ascii String Permutation Lia.
From Verif Require Import Text TextProofs NumSpec ConstraintModel ConstraintSpec SourceRangeModel FeatureTreeModel FeatureTreeSpec FeatureTransactionModel
  FeatureTransactionSpec FeatureEditSpec FeatureTreeProofs FeatureOrderProofs FeatureEditProofs FeatureTransactionFinal FeatureDataProofs FeatureMergeResult SampleProofs FeatureBuildSpec SxfmModel XmlModel
  XmlWriterModel XmlSpec XmlDetectProofs XmlReadProofs XmlTripSpec XmlTripText.
Import ListNotations.
Local Open Scope string_scope.
Local Open Scope list_scope.
Local Open Scope nat_scope.

Lemma map_option_ok {A B} (f : A -> option B) (P : A -> B -> Prop) l : (forall a, In a l -> exists b, f a = Some b /\ P a b) -> exists bs, map_option f l = Some bs /\ Forall2 P l bs.
Proof.
  induction l as [|a l IH]; intros E; [exists []; split; [reflexivity|constructor]|]. destruct (E a (or_introl eq_refl)) as (b & Eb & Pb). destruct IH as (bs & Es & F); [intros x I; apply E; right; exact I|].
  exists (b :: bs). cbn [map_option]. rewrite Eb. cbn [bind]. rewrite Es. split; [reflexivity|constructor; assumption].
Qed.

(** "A o B" is a constraint. *)
Definition states_pair (o : binop) (m : fmodel) (a b : nid) : Prop := exists c, In c (all_constraints m) /\ c_expr c = CBin o (CFeat (Ref a)) (CFeat (Ref b)).

Lemma upper_bound_total (comp : nid -> option bool) l : (forall x, In x l -> exists b, comp x = Some b) ->
  forall fuel first len, len < fuel -> first + len <= List.length l -> exists r, upper_bound fuel comp l first len = Some r.
Proof.
  intros Def. induction fuel as [|k IH]; intros first len Lf Ll; [lia|]. cbn [upper_bound]. destruct (Nat.eqb_spec len 0) as [Z|Z]; [eauto|]. pose proof (Nat.lt_div2 len ltac:(lia)) as Hd.
  destruct (nth_error l (first + Nat.div2 len)) as [x|] eqn:Nx; [|apply nth_error_None in Nx; lia]. cbn [bind]. destruct (Def x (nth_error_In _ _ Nx)) as (b & ->). cbn [bind]. destruct b; apply IH; lia.
Qed.

Section Model.
Variable ord : list nid -> list nid.
Hypothesis ord_ok : is_order ord.
Variables (h : heap) (m : fmodel) (t : tree).
Hypothesis R : represents h m t.

Lemma rep_top_feature : is_feature (rdata t) = true.
Proof. destruct (rep_top_data R) as (f & E & _). rewrite E. reflexivity. Qed.
Lemma in_features i : In i (feature_ids t) <-> exists s, get_feature m s = Some i.
Proof. rewrite feature_ids_named. split; intros (s & X); exists s; apply (rep_find R); exact X. Qed.

(** ** Ordered vectors *)
Lemma less_total a b : In a (feature_ids t) -> In b (feature_ids t) -> exists x, feature_less h a b = Some x.
Proof.
  intros A B. destruct (fpath_exists t a rep_top_feature A) as (la & Pa). destruct (fpath_exists t b rep_top_feature B) as (lb & Pb).
  rewrite (feature_less_tree h t a b la lb (rep_ok _ _ _ R) (rep_holds _ _ _ R) (rep_ids _ _ _ R) rep_top_feature Pa Pb). unfold path_less.
  assert (Sk : forall la lb, incl (fst (skip_common la lb)) la /\ incl (snd (skip_common la lb)) lb).
  { clear. induction la as [|x la IH]; intros lb; [cbn; split; apply incl_refl|]. destruct lb as [|y lb]; [cbn; split; apply incl_refl|]. cbn [skip_common]. destruct (x =? y); [|cbn; split; apply incl_refl].
    destruct (IH lb). split; apply incl_tl; assumption. }
  specialize (Sk la lb). destruct (skip_common la lb) as (ra & rb). cbn [fst snd] in Sk. destruct ra as [|p ra]; [eauto|]. destruct rb as [|q rb]; [eauto|].
  assert (L : forall l x y, fpath t l x -> In y l -> exists u, lower_at h y = Some u).
  { intros l x y P I. destruct (fpath_feature t l x y h None P (rep_holds _ _ _ R) rep_top_feature I) as (o & u & Hu & <- & Fu). rewrite (lower_at_tree h o u Hu Fu). eauto. }
  destruct (L la a p Pa (proj1 Sk p (or_introl eq_refl))) as (u & ->). destruct (L lb b q Pb (proj2 Sk q (or_introl eq_refl))) as (v & ->). cbn [bind]. eauto.
Qed.
Lemma vector_insert_ok l v : incl l (feature_ids t) -> In v (feature_ids t) -> exists r, vector_insert h l v = Some r /\ Permutation r (v :: l).
Proof.
  intros L V. unfold vector_insert, ordered_insert. destruct (upper_bound_total (feature_less h v) l) with (fuel := S (List.length l)) (first := 0) (len := List.length l) as (r & ->); [|lia|lia|].
  - intros x I. apply less_total; [exact V|apply L; exact I].
  - cbn [bind]. eexists. split; [reflexivity|]. rewrite <- (firstn_skipn r l) at 3. symmetry. apply Permutation_middle.
Qed.
Lemma insert_all_ok vs : forall l, incl l (feature_ids t) -> incl vs (feature_ids t) -> exists r, insert_all h l vs = Some r /\ Permutation r (vs ++ l).
Proof.
  induction vs as [|v vs IH]; intros l L V; [exists l; split; [reflexivity|apply Permutation_refl]|].
  destruct (vector_insert_ok l v L (V v (or_introl eq_refl))) as (r & E & P).
  destruct (IH r) as (r' & E' & P').
  - intros x I. apply (Permutation_in x P) in I. destruct I as [<-|I]; [apply V; left; reflexivity|apply L; exact I].
  - intros x I. apply V. right. exact I.
  - exists r'. unfold insert_all in *. cbn [fold_left bind]. rewrite E. split; [exact E'|]. rewrite P', P. symmetry. apply (Permutation_middle vs l v).
Qed.
Lemma mem_in i l : mem i l = true <-> In i l.
Proof. unfold mem. rewrite existsb_exists. split; [intros (x & I & E); apply Nat.eqb_eq in E; subst x; exact I|intros I; exists i; split; [exact I|apply Nat.eqb_refl]]. Qed.
Lemma insert_new_ok vs : forall l, incl l (feature_ids t) -> incl vs (feature_ids t) -> exists r, insert_new h l vs = Some r /\ (forall x, In x r <-> In x l \/ In x vs) /\ (NoDup l -> NoDup r).
Proof.
  induction vs as [|v vs IH]; intros l L V; [exists l; split; [reflexivity|]; split; [intros x; cbn; tauto|auto]|].
  assert (V' : incl vs (feature_ids t)) by (intros x I; apply V; right; exact I). unfold insert_new in *. cbn [fold_left bind]. destruct (mem v l) eqn:M.
  - apply mem_in in M. destruct (IH l L V') as (r & E & P & N). exists r. split; [exact E|]. split; [|exact N]. intros x. rewrite P. cbn [In]. split; [tauto|]. intros [I|[<-|I]]; auto.
  - destruct (vector_insert_ok l v L (V v (or_introl eq_refl))) as (r0 & E0 & P0). rewrite E0. destruct (IH r0) as (r & E & P & N).
    + intros x I. apply (Permutation_in x P0) in I. destruct I as [<-|I]; [apply V; left; reflexivity|apply L; exact I].
    + exact V'.
    + exists r. split; [exact E|]. split; [|intros Nl; apply N, (Permutation_NoDup (Permutation_sym P0)); constructor; [rewrite <- mem_in, M; discriminate|exact Nl]]. intros x. rewrite P. assert (Q : In x r0 <-> In x (v :: l)) by (split; apply Permutation_in; [|symmetry]; exact P0). rewrite Q. cbn [In]. tauto.
Qed.

(** ** Parents and group members *)
Lemma parent_ok i : In i (feature_ids t) -> (i = rid t /\ parent_feature h i = Some None) \/ exists p, i <> rid t /\ parent_feature h i = Some (Some p) /\ feature_above h i p /\ In p (feature_ids t).
Proof.
  intros I. apply in_features in I. apply (model_feature h m t R) in I. destruct I as (u & f & U & <- & D). destruct (Nat.eq_dec (rid u) (rid t)) as [E|E].
  - left. rewrite E. split; [reflexivity|]. apply parent_feature_root. apply (rep_holds _ _ _ R).
  - right. destruct (feature_parent_in t rep_top_feature u) as (q & Q & Fq & Iq); [rewrite D; reflexivity|exact U|congruence|].
    destruct (holds_sub h None t q (rep_holds _ _ _ R) Q) as (o & Hq). pose proof (subtree_nodup _ _ Q (rep_ids _ _ _ R)) as Dq. destruct q as [n d ts]. cbn [rdata kids] in *.
    exists n. split; [exact E|]. pose proof (parent_feature_near h o n d ts u (rep_ok _ _ _ R) Hq Dq Fq Iq) as P. split; [exact P|]. split; [exact (parent_feature_above _ _ _ P)|].
    apply in_features. apply (model_feature h m t R). destruct d as [g|]; [|discriminate]. exists (Node n (NFeature g) ts), g. auto.
Qed.
Lemma no_parent_top : forall p, ~ feature_above h (rid t) p.
Proof. intros p A. pose proof (rep_top R) as C. inversion A as [? c x cp C1 P1|? c x cp y C1 P1]; subst; rewrite C in C1; injection C1 as <-; discriminate. Qed.

Lemma parent_subtree u q c : subtree u t -> h_cells h (rid u) = Some c -> n_parent c = Some q -> exists v, subtree v t /\ rid v = q /\ In u (kids v).
Proof.
  intros U C P. destruct (subtree_parent u t U) as [->|(v & V & I)].
  - exfalso. rewrite (rep_top R) in C. injection C as <-. discriminate.
  - exists v. split; [exact V|]. split; [|exact I]. rewrite (rep_kid R v u V I) in C. injection C as <-. cbn in P. congruence.
Qed.
Lemma set_remove_in i j l : In j (set_remove i l) <-> j <> i /\ In j l.
Proof. unfold set_remove. rewrite filter_In. destruct (Nat.eqb_spec i j) as [->|N]; cbn; [|destruct (Nat.eqb_spec j i) as [->|N']]; intuition congruence. Qed.
Lemma siblings_ok i : In i (feature_ids t) -> exists l, siblings ord h i = Some l /\ (forall j, In j l <-> j <> i /\ In j (feature_ids t) /\ together h i j) /\ NoDup l.
Proof.
  intros I. apply in_features in I. apply (model_feature h m t R) in I. destruct I as (u & f & U & <- & D). destruct (rep_cell R u U) as (o & C). unfold siblings. rewrite C. cbn [bind n_parent]. destruct o as [q|].
  - destruct (parent_subtree u q _ U C eq_refl) as (v & V & <- & Iv). destruct (rep_cell R v V) as (o & Cv). rewrite Cv. cbn [bind n_data]. destruct (rdata v) as [g|k] eqn:Dv; cbn [is_relationship].
    + exists []. split; [reflexivity|]. split; [|constructor]. intros j. split; [intros []|]. intros (_ & _ & (ca & cb & q & cq & k & Ca & _ & Pa & _ & Cq & Dq)). rewrite C in Ca. injection Ca as <-. injection Pa as <-. rewrite Cv in Cq. injection Cq as <-. discriminate Dq.
    + destruct (holds_sub h None t v (rep_holds _ _ _ R) V) as (o' & Hv). pose proof (subtree_nodup _ _ V (rep_ids _ _ _ R)) as Nv. pose proof (grouped_sub _ _ V (rep_shape _ _ _ R)) as Gv.
      destruct v as [n d ts]. cbn [rdata rid kids] in *. subst d. inversion Gv as [|? ? ? Ff _]; subst. unfold child_features. rewrite (get_children_tree ord is_feature h o' n _ ts (rep_ok _ _ _ R) Hv Nv). cbn [bind].
      assert (flat_map (tops is_feature) ts = ts) as ->.
      { clear -Ff. induction Ff as [|x ts Fx Ff IH]; [reflexivity|]. cbn [flat_map]. rewrite IH. destruct x as [xn xd xts]. cbn [rdata] in Fx. cbn [tops]. rewrite Fx. reflexivity. }
      eexists. split; [reflexivity|]. split; [|apply NoDup_filter; apply (Permutation_NoDup (l := map rid ts)); [apply Permutation_sym, ord_ok|exact (FeatureGroupProofs.nodup_rids ts (proj2 (proj1 (NoDup_cons_iff n (flat_map ids ts)) Nv)))]]. intros j. rewrite set_remove_in. assert (In j (ord (map rid ts)) <-> In j (map rid ts)) as -> by (split; apply Permutation_in; [|symmetry]; apply ord_ok). split.
      * intros (N & J). split; [exact N|]. apply in_map_iff in J. destruct J as (w & <- & W). assert (Sw : subtree w t) by (eapply subtree_trans; [|exact V]; econstructor; [exact W|constructor]).
        rewrite Forall_forall in Ff. pose proof (Ff w W) as Fw. split.
        { apply in_features. apply (model_feature h m t R). destruct (rdata w) as [g|] eqn:Dw; [|discriminate]. exists w, g. auto. }
        pose proof (rep_kid R (Node n (NRelationship k) ts) w V W) as Cw. exists (Cell (rdata u) (Some n) (map rid (kids u))). eexists. exists n. eexists. exists k.
        split; [exact C|]. split; [exact Cw|]. split; [reflexivity|]. split; [reflexivity|]. split; [exact Cv|reflexivity].
      * intros (N & J & (ca & cb & q & cq & k' & Ca & Cb & Pa & Pb & Cq & Dq)). split; [exact N|]. rewrite C in Ca. injection Ca as <-. cbn in Pa. injection Pa as <-.
        apply in_features in J. apply (model_feature h m t R) in J. destruct J as (w & g & W & <- & Dw). destruct (parent_subtree w n cb W Cb Pb) as (v & V' & Ev & Iw).
        assert (v = Node n (NRelationship k) ts) as -> by (apply (subtree_unique t); [apply (rep_ids _ _ _ R)|exact V'|exact V|exact Ev]). apply in_map. exact Iw.
  - exists []. split; [reflexivity|]. split; [|constructor]. intros j. split; [intros []|]. intros (_ & _ & (ca & cb & q & cq & k & Ca & _ & Pa & _)). rewrite C in Ca. injection Ca as <-. discriminate Pa.
Qed.

(** ** Constraints *)
Hypothesis En : enrolled h m.
Hypothesis Rs : all_resolved m.

Lemma ref_name i : In i (feature_ids t) -> exists f, cref_name h (Ref i) = Some (f_name f) /\ feature_at h i = Some f /\ get_feature m (f_name f) = Some i.
Proof.
  intros I. apply in_features in I. destruct (model_feature_at h m t R i I) as (f & F & G). exists f. cbn [cref_name]. unfold name_at. rewrite F. auto.
Qed.
Lemma right_sides_ok cl o i f l : (forall e, class_of e = cl -> exists a b, e = CBin o a b) -> (forall a b : cexpr cref, class_of (CBin o a b) = cl) ->
  get_feature m (f_name f) = Some i -> (forall id, In id l <-> mentioned m cl id i) ->
  exists r, right_sides h m f l = Some r /\ forall y, In y r <-> In y (feature_ids t) /\ states_pair o m i y.
Proof.
  intros Hc Hc' G L. unfold right_sides.
  destruct (map_option_ok (fun id => let* e := constraint_of m id in
    match e with
    | CBin _ (CFeat x) (CFeat (Ref y)) => let* u := cref_name h x in Some (if text_eqb u (f_name f) then [y] else [])
    | CBin _ (CFeat x) (CFeat (Own _)) => let* u := cref_name h x in if text_eqb u (f_name f) then None else Some []
    | _ => Some []
    end) (fun id r => forall y, In y r <-> In y (feature_ids t) /\ exists c, In c (all_constraints m) /\ c_id c = id /\ c_expr c = CBin o (CFeat (Ref i)) (CFeat (Ref y))) l) as (rs & E & F).
  - intros id I. apply L in I. destruct I as (c & Ic & <- & Cl & Le). pose proof (constraint_of_in h m En c Ic) as Co. rewrite Co. cbn [bind].
    assert (U : forall c', In c' (all_constraints m) -> c_id c' = c_id c -> c_expr c' = c_expr c).
    { intros c' Ic' X. pose proof (constraint_of_in h m En c' Ic') as Y. rewrite X, Co in Y. congruence. }
    assert (No : (forall y, c_expr c <> CBin o (CFeat (Ref i)) (CFeat (Ref y))) -> forall y : nid, In y [] <-> In y (feature_ids t) /\ exists c', In c' (all_constraints m) /\ c_id c' = c_id c /\ c_expr c' = CBin o (CFeat (Ref i)) (CFeat (Ref y))).
    { intros N y. split; [intros []|]. intros (_ & c' & Ic' & X & Y). rewrite (U c' Ic' X) in Y. exact (N y Y). }
    destruct (Hc _ Cl) as (a & b & Ec). rewrite Ec.
    destruct a as [oa la ra|oa ea|na|x]; try (exists []; split; [reflexivity|]; apply No; intros y; rewrite Ec; discriminate).
    destruct b as [ob lb rb|ob eb|nb|z]; try (exists []; split; [reflexivity|]; apply No; intros y; rewrite Ec; discriminate).
    destruct (Rs c x Ic) as (sx' & ix & -> & Gx); [rewrite Ec; left; reflexivity|]. destruct (Rs c z Ic) as (sz & iz & -> & Gz); [rewrite Ec; right; left; reflexivity|].
    assert (Fx : In ix (feature_ids t)) by (apply in_features; eauto). assert (Fz : In iz (feature_ids t)) by (apply in_features; eauto).
    destruct (ref_name ix Fx) as (g & -> & _ & Gg). cbn [bind]. destruct (text_eqb (f_name g) (f_name f)) eqn:Eq.
    + apply text_eqb_eq in Eq. rewrite Eq, G in Gg. injection Gg as <-. exists [iz]. split; [reflexivity|]. intros y. split.
      * intros [<-|[]]. split; [exact Fz|]. exists c. auto.
      * intros (_ & c' & Ic' & X & Y). rewrite (U c' Ic' X), Ec in Y. injection Y as ->. left. reflexivity.
    + apply text_eqb_neq in Eq. exists []. split; [reflexivity|]. apply No. intros y Y. rewrite Ec in Y. injection Y as -> ->. apply Eq. 
      destruct (model_feature_at h m t R i) as (f' & Ff' & Gf'); [eauto|]. destruct (model_feature_at h m t R i) as (g' & Fg' & Gg'); [eauto|].
      pose proof (name_unique h m t R i _ f' Gg Ff'). pose proof (name_unique h m t R i _ f' G Ff'). congruence.
  - rewrite E. cbn [bind]. eexists. split; [reflexivity|]. intros y. rewrite in_concat. split.
    + intros (r & Ir & Iy). assert (X : exists id, In id l /\ forall y, In y r <-> In y (feature_ids t) /\ exists c, In c (all_constraints m) /\ c_id c = id /\ c_expr c = CBin o (CFeat (Ref i)) (CFeat (Ref y))).
      { clear -F Ir. induction F as [|a b l rs P F IH]; [destruct Ir|]. destruct Ir as [->|Ir]; [exists a; split; [left; reflexivity|exact P]|]. destruct (IH Ir) as (id & I & Q). exists id. split; [right; exact I|exact Q]. }
      destruct X as (id & _ & X). apply X in Iy. destruct Iy as (Fy & c & Ic & _ & Ec). split; [exact Fy|]. exists c. auto.
    + intros (Fy & c & Ic & Ec). assert (Il : In (c_id c) l) by (apply L; exists c; rewrite Ec; split; [exact Ic|]; split; [reflexivity|]; split; [apply Hc'|left; reflexivity]).
      clear -F Il Ic Ec Fy. induction F as [|a b l rs P F IH]; [destruct Il|]. destruct Il as [->|Il].
      * exists b. split; [left; reflexivity|]. apply P. split; [exact Fy|]. exists c. auto.
      * destruct (IH Il) as (r & Ir & Iy). exists r. split; [right; exact Ir|exact Iy].
Qed.

(** ** Lists of names *)
Definition names_elems (s : string) (l : list text) : list xml := match l with [] => [] | _ => [elem s (map (leaf_elem "options") l)] end.
Lemma write_names_ok s l : incl l (feature_ids t) -> exists ns, write_names h s l = Some (names_elems s ns) /\
  (forall n, In n ns <-> exists i, In i l /\ get_feature m n = Some i) /\ Forall2 (fun i n => get_feature m n = Some i) l ns.
Proof.
  intros L. unfold write_names. destruct (map_option_ok (name_at h) (fun i n => get_feature m n = Some i) l) as (ns & -> & F).
  - intros i I. destruct (ref_name i (L i I)) as (f & N & _ & G). exists (f_name f). cbn [cref_name] in N. auto.
  - cbn [bind]. exists ns. split; [destruct ns; reflexivity|]. split; [|exact F]. intros n. split.
    + intros I. clear L. induction F as [|i n' l ns G F IH]; [destruct I|]. destruct I as [->|I]; [exists i; split; [left; reflexivity|exact G]|]. destruct (IH I) as (j & J & Gj). exists j. split; [right; exact J|exact Gj].
    + intros (i & I & G). assert (Fi := L i I). clear L. induction F as [|j n' l ns G' F IH]; [destruct I|]. destruct I as [->|I]; [|right; exact (IH I)]. left.
      destruct (model_feature_at h m t R i) as (f & Ff & Gf); [eauto|]. rewrite <- (name_unique h m t R i n f G Ff), <- (name_unique h m t R i n' f G' Ff). reflexivity.
Qed.
End Model.
