(** Drawings of described models. *)
From Coq Require Import List ZArith NArith Arith Bool Ascii String Permutation Lia.
From Verif Require Import Text TextProofs ConstraintModel ConstraintSpec ConstraintHeapSpec SourceRangeModel FeatureTreeModel FeatureTreeSpec FeatureTreeProofs FeatureOrderProofs FeatureTransactionModel FeatureTransactionSpec FeatureEditSpec FeatureEditProofs
  FeatureGroupProofs FeatureHistoryProofs FeatureBuildSpec FeatureCloneSpec FeatureCloneProofs SxfmModel XmlModel XmlSpec XmlReadProofs XmlFinal XmlTripWrite SolverSpec SolverLoadProofs ValidProofs DescribedSpec DescribedProofs DescribedFinal GeneratorProofs XmlTextSpec
  RegisterSpec RegisterProofs RegisterFinal RegisterDrawProofs GraphvizModel GraphvizSpec DumpSpec DumpFinal ViewerSpec ViewerProofs ViewerDumpProofs.
Import ListNotations.
Local Open Scope list_scope.

Lemma flat_map_map {A B C} (f : A -> B) (g : B -> list C) l : flat_map g (map f l) = flat_map (fun x => g (f x)) l.
Proof. induction l as [|a l IH]; [reflexivity|]. cbn. rewrite IH. reflexivity. Qed.
Lemma flat_map_same {A B} (f g : A -> list B) l : (forall x, In x l -> f x = g x) -> flat_map f l = flat_map g l.
Proof. induction l as [|a l IH]; intros E; [reflexivity|]. cbn. rewrite (E a (or_introl eq_refl)), IH; [reflexivity|]. intros x I. apply E. right. exact I. Qed.

Lemma paired_weaken {A B} (P Q : A -> B -> Prop) xs ys : (forall x y, P x y -> Q x y) -> Forall2 P xs ys -> Forall2 Q xs ys.
Proof. intros W. induction 1; constructor; auto. Qed.
Lemma perm_same {A} (l r : list A) : l = r -> Permutation l r.
Proof. intros ->. apply Permutation_refl. Qed.

Section Mentions.
Variables (h : heap) (m : fmodel).
Hypothesis Rg : RegisterSpec.registered h m.
Definition nm (r : cref) : text := match r with Own s => s | Ref j => match feature_at h j with Some f => f_name f | None => [] end end.
Lemma spelled_nm e x : spelled_out h e x -> x = cmap nm e.
Proof.
  induction 1 as [n|r s M|o x y S IH|o l r x y S1 IH1 S2 IH2]; cbn [cmap]; try congruence. f_equal. destruct r as [u|i]; cbn in *; [exact M|]. destruct M as (f & -> & ->). reflexivity.
Qed.
(** The mentions of a feature, constraint by constraint. *)
Definition mention_list (i : nid) (l : list mconstraint) : list (nat * nat) := flat_map (fun c => map (pair (c_id c)) (places i (leaves (c_expr c)) 0)) l.
Lemma mention_list_in i l id pos : In (id, pos) (mention_list i l) <-> exists c, In c l /\ c_id c = id /\ nth_error (leaves (c_expr c)) pos = Some (Ref i).
Proof.
  unfold mention_list. rewrite in_flat_map. split.
  - intros (c & I & J). apply in_map_iff in J. destruct J as (p & E & J). injection E as <- <-. apply places_iff in J. destruct J as (k & -> & J). exists c. auto.
  - intros (c & I & <- & J). exists c. split; [exact I|]. apply in_map. apply places_iff. exists pos. auto.
Qed.
Lemma mention_list_nodup i l : NoDup (map c_id l) -> NoDup (mention_list i l).
Proof.
  induction l as [|c l IH]; intros N; [constructor|]. cbn [map] in N. inversion N as [|? ? Nc Nl]; subst. unfold mention_list. cbn [flat_map]. fold (mention_list i l). apply nodup_app. split; [|split; [exact (IH Nl)|]].
  - apply FinFun.Injective_map_NoDup; [intros x y X; injection X as ->; reflexivity|apply places_nodup].
  - intros (id & pos) I J. apply in_map_iff in I. destruct I as (p & E & _). injection E as <- <-. apply mention_list_in in J. destruct J as (c' & Ic & E & _). apply Nc. rewrite <- E. apply in_map. exact Ic.
Qed.
Definition spelled_id (k : nat * nat) : cexpr text :=
  match find (fun c => Nat.eqb (c_id c) (fst k)) (all_constraints m) with Some c => cmap nm (c_expr c) | None => CInt 0 end.
Lemma spelled_id_ok c pos : In c (all_constraints m) -> spelled_id (c_id c, pos) = cmap nm (c_expr c).
Proof.
  intros I. unfold spelled_id. cbn [fst]. pose proof (rg_distinct _ _ Rg) as D. destruct (find _ _) as [c'|] eqn:E.
  - apply find_some in E. destruct E as (I' & E). apply Nat.eqb_eq in E. assert (c' = c) as ->; [|reflexivity]. revert D I I' E. generalize (all_constraints m) as l. clear.
    induction l as [|a l IH]; cbn; intros D; inversion_clear D as [|? ? Na Dl]; [contradiction|]. intros [->|I] [->|I'] E; auto; exfalso; apply Na, in_map_iff; [exists c'; auto|exists c; auto].
  - exfalso. apply (find_none _ _ E) in I. rewrite Nat.eqb_refl in I. discriminate.
Qed.
Lemma registered_rows i g xs : get_feature m (f_name g) = Some i -> feature_at h i = Some g -> GraphvizSpec.registered h m g xs ->
  Permutation xs (flat_map (fun e => repeat (cmap nm e) (List.length (places i (leaves e) 0))) (map c_expr (all_constraints m))).
Proof.
  intros G F X. assert (xs = map spelled_id (f_constraints g)) as ->.
  { unfold GraphvizSpec.registered in X. induction X as [|k x ks xs (e & Oe & Se) X IH]; [reflexivity|]. cbn [map]. f_equal; [|exact IH]. apply owned_iff in Oe. destruct Oe as (c & Ic & E1 & <-). destruct k as (id & pos). cbn [fst] in E1. subst id.
    rewrite (spelled_id_ok c pos Ic). exact (spelled_nm _ _ Se). }
  assert (Permutation (f_constraints g) (mention_list i (all_constraints m))) as Pm.
  { apply NoDup_Permutation; [exact (in_once _ _ (rg_informed _ _ Rg) _ _ _ G F)|apply mention_list_nodup; exact (rg_distinct _ _ Rg)|]. intros (id & pos). rewrite mention_list_in. exact (in_mentions _ _ (rg_informed _ _ Rg) _ _ _ id pos G F). }
  rewrite (Permutation_map spelled_id Pm). apply perm_same. rewrite flat_map_map. unfold mention_list.
  assert (forall l, incl l (all_constraints m) -> map spelled_id (flat_map (fun c => map (pair (c_id c)) (places i (leaves (c_expr c)) 0)) l) = flat_map (fun c => repeat (cmap nm (c_expr c)) (List.length (places i (leaves (c_expr c)) 0))) l) as K; [|apply K, incl_refl].
  induction l as [|c l IH]; intros Il; [reflexivity|]. cbn [flat_map]. rewrite map_app, IH by (intros x Ix; apply Il; right; exact Ix). f_equal. generalize (places i (leaves (c_expr c)) 0) as ps. induction ps as [|p ps IHp]; [reflexivity|]. cbn [map List.length repeat].
  rewrite IHp, (spelled_id_ok c p (Il c (or_introl eq_refl))). reflexivity.
Qed.
End Mentions.

Section Shown.
Variables (cs cs0 : list bcall) (d : decl) (h : heap) (m : fmodel) (t : tree).
Hypothesis R : represents h m t.
Hypothesis AD : as_described cs d h m.
Hypothesis DE : describes cs d.
Hypothesis Ed : forall s, last_edge cs s (fst d) = last_edge cs0 s (fst d).
Hypothesis Co : constraints_of cs = constraints_of cs0.
Hypothesis Gr : forall s k, requested cs s k <-> found cs0 d s k.
Hypothesis Rg : RegisterSpec.registered h m.

Lemma paired_map {A B C} (f : A -> C) (g : B -> C) xs ys : Forall2 (fun x y => g y = f x) xs ys -> map g ys = map f xs.
Proof. induction 1 as [|x y xs ys E F IH]; [reflexivity|]. cbn. congruence. Qed.
Lemma model_exprs : Permutation (map c_expr (all_constraints m)) (map (fun x => cmap (pointing m) (snd x)) (constraints_of cs)).
Proof.
  unfold all_constraints. rewrite !map_app, map_map. rewrite (paired_map (cmap (pointing m)) c_expr _ _ (ad_boolean _ _ _ _ AD)), (paired_map (cmap (pointing m)) c_expr _ _ (ad_nonboolean _ _ _ _ AD)).
  assert (map (fun x => c_expr (x_con x)) (m_mixed m) = map (fun x => cmap (pointing m) (snd x)) (flat_map (fun x => match fst x with KMixed r k => [((r, k), snd x)] | _ => [] end) (constraints_of cs))) as ->.
  { apply paired_map. eapply paired_weaken; [|exact (ad_mixed _ _ _ _ AD)]. intros x y (L & _). exact L. }
  generalize (constraints_of cs) as l. induction l as [|[[| |r k] e] l IH]; [apply Permutation_refl| | |]; cbn [flat_map map fst snd app].
  - constructor. exact IH.
  - rewrite <- Permutation_middle. constructor. exact IH.
  - rewrite app_assoc, <- Permutation_middle, <- app_assoc. constructor. exact IH.
Qed.
Lemma naming_pointing e : mentions_declared d e -> cmap (nm h) (cmap (pointing m) e) = naming e.
Proof.
  unfold mentions_declared, naming. induction e as [o l IHl r IHr|o e IH|n|x]; intros M; cbn [cmap leaves] in *.
  - rewrite IHl, IHr; [reflexivity| |]; intros q I; apply M, in_or_app; auto.
  - rewrite IH; auto.
  - reflexivity.
  - destruct (M x (or_introl eq_refl)) as (s & -> & Tk). apply (declared_in cs d h m t R AD) in Tk. destruct Tk as (i & G). cbn [pointing]. rewrite G. destruct (get_stored h m t R s i G) as (f & Sf & <-). cbn [nm]. rewrite (proj2 Sf). reflexivity.
Qed.
Lemma places_count i s : get_feature m s = Some i -> forall rs, (forall r, In r rs -> exists s, r = Own s /\ taken d s) -> forall pos,
  List.length (places i (map (pointing m) rs) pos) = count_occ (list_eq_dec ascii_dec) (map (fun r => match r with Own s => s | Ref _ => [] end) rs) s.
Proof.
  intros G. induction rs as [|r rs IH]; intros M pos; [reflexivity|]. cbn [map places count_occ]. rewrite app_length, IH by (intros q I; apply M; right; exact I).
  destruct (M r (or_introl eq_refl)) as (s' & -> & Tk). apply (declared_in cs d h m t R AD) in Tk. destruct Tk as (j & Gj). cbn [pointing]. rewrite Gj. destruct (Nat.eqb_spec j i) as [->|N]; destruct (list_eq_dec ascii_dec s' s) as [->|N']; cbn [List.length]; try reflexivity.
  - exfalso. apply N'. destruct (get_stored h m t R s i G) as (f & Sf & <-). symmetry. rewrite (get_name h m t R s' i f Gj (proj2 Sf)). reflexivity.
  - exfalso. apply N. congruence.
Qed.
Lemma leaves_map {F G} (f : F -> G) e : leaves (cmap f e) = map f (leaves e).
Proof. induction e as [o l IHl r IHr|o e IH|n|x]; cbn; try congruence. rewrite map_app. congruence. Qed.
Lemma rows_mentioning i g xs : get_feature m (f_name g) = Some i -> feature_at h i = Some g -> GraphvizSpec.registered h m g xs -> Permutation xs (mentioning cs0 (f_name g)).
Proof.
  intros G F X. rewrite (registered_rows h m Rg i g xs G F X). rewrite model_exprs, flat_map_map. unfold mentioning. rewrite <- Co. apply perm_same. apply flat_map_same. intros (k & e) I. cbn [snd].
  pose proof (declared_constraint cs d DE k e I) as M. rewrite (naming_pointing e M). f_equal. rewrite leaves_map. unfold naming. rewrite leaves_map. exact (places_count i (f_name g) G (leaves e) M 0).
Qed.

(** ** Nodes and edges *)
Definition box (s : text) : nid := match get_feature m s with Some i => i | None => 0 end.
Definition knot (s : text) : nid :=
  match find (fun q => match h_cells h q with Some c => match n_parent c with Some p => Nat.eqb p (box s) | None => false end | None => false end) (m_relationships m) with Some q => q | None => 0 end.
Lemma box_node u g : subtree u t -> rdata u = NFeature g -> box (f_name g) = rid u.
Proof. intros U D. unfold box. rewrite (stored_get h m t R _ _ (sub_stored h m t R u g U D)). reflexivity. Qed.
Lemma knot_node u g q k : subtree u t -> rdata u = NFeature g -> In q (kids u) -> rdata q = NRelationship k -> knot (f_name g) = rid q.
Proof.
  intros U D I Dq. unfold knot. rewrite (box_node u g U D). assert (Q : subtree q t) by (destruct u as [n du ts]; exact (subtree_trans _ _ _ (subtree_kid n du ts q I) U)).
  destruct (find _ _) as [i|] eqn:E.
  - apply find_some in E. destruct E as (Ii & E). apply (Permutation_in _ (rep_groups _ _ _ R)) in Ii. apply groups_subtree in Ii. destruct Ii as (q' & k' & Q' & <- & Dq').
    destruct (h_cells h (rid q')) as [c|] eqn:C; [|discriminate]. destruct (n_parent c) as [p|] eqn:P; [|discriminate]. apply Nat.eqb_eq in E. subst p.
    destruct (parent_subtree h m t R q' (rid u) c Q' C P) as (v & V & Ev & Iq). assert (v = u) as -> by (apply (subtree_unique t); [apply (rep_ids _ _ _ R)|exact V|exact U|exact Ev]).
    f_equal. exact (one_group h m t R u g q' q k' k U D Iq Dq' I Dq).
  - exfalso. assert (Iq : In (rid q) (m_relationships m)) by (eapply Permutation_in; [apply Permutation_sym; exact (rep_groups _ _ _ R)|]; apply groups_subtree; exists q, k; auto).
    apply (find_none _ _ E) in Iq. rewrite (rep_kid R u q U I) in Iq. cbn in Iq. rewrite Nat.eqb_refl in Iq. discriminate.
Qed.
Lemma box_placed u f : placed d t u f -> box (f_name f) = rid u.
Proof. intros (_ & U & g & D & S). rewrite <- (proj1 (proj2 S)). exact (box_node u g U D). Qed.
Lemma head_placed v f : placed d t v f -> points (rdata v) = head_of f.
Proof. intros (_ & _ & g & D & S). rewrite D. cbn [points]. unfold head_of. destruct S as (_ & _ & _ & _ & ->). reflexivity. Qed.
Lemma taken_node s : taken d s -> exists u g, subtree u t /\ rdata u = NFeature g /\ f_name g = s.
Proof. intros Tk. apply (declared_in cs d h m t R AD) in Tk. destruct Tk as (i & G). destruct (get_stored h m t R s i G) as (g & Sg & N). apply (stored_sub h m t R) in Sg. destruct Sg as (u & U & _ & D). exists u, g. auto. Qed.
Lemma below_taken s f : below cs d s f -> taken d s.
Proof. intros (I & <-). exact (parent_taken cs d h m t R AD f I). Qed.
Definition groups_of : list text := map fst (requests cs).
Lemma groups_of_iff s : In s groups_of <-> taken d s /\ alternatives cs0 d s.
Proof.
  unfold groups_of. rewrite in_map_iff. split.
  - intros ((s' & k) & <- & I). cbn [fst]. assert (A : found cs0 d s' k) by (apply Gr; exact I). split; [|exact (proj2 A)]. destruct (proj2 A) as ((f & g & B & _) & _). apply (below_taken s' f). apply (below_same cs cs0 d Ed). exact B.
  - intros (_ & A). exists (s, RAlternative). split; [reflexivity|]. apply Gr. split; [reflexivity|exact A].
Qed.
Lemma knot_kid s : In s groups_of -> exists u g q, subtree u t /\ rdata u = NFeature g /\ f_name g = s /\ In q (kids u) /\ rdata q = NRelationship RAlternative /\ knot s = rid q.
Proof.
  intros I. apply groups_of_iff in I. destruct I as (Tk & A). destruct (taken_node s Tk) as (u & g & U & D & N). subst s. destruct (requested_kid cs d h m t R AD u g RAlternative U D) as (q & Iq & Dq); [apply Gr; split; [reflexivity|exact A]|].
  exists u, g, q. split; [exact U|]. split; [exact D|]. split; [reflexivity|]. split; [exact Iq|]. split; [exact Dq|]. exact (knot_node u g q _ U D Iq Dq).
Qed.
Lemma drawn_nodes : Permutation (ids t) (map (fun f => box (f_name f)) (described d) ++ map knot groups_of).
Proof.
  rewrite ids_named_groups. apply Permutation_app.
  - rewrite <- (rep_features _ _ _ R). rewrite <- (map_map f_name box). change (map f_name (described d)) with (fst d :: map f_name (snd d)). rewrite <- (ad_names _ _ _ _ AD), map_map. apply perm_same.
    apply map_ext_in. intros (s & i) I. cbn [fst snd]. unfold box. assert (get_feature m s = Some i) as ->; [|reflexivity]. apply (rep_find R). eapply Permutation_in; [exact (rep_features _ _ _ R)|exact I].
  - rewrite <- (rep_groups _ _ _ R). apply perm_same. unfold groups_of. rewrite map_map. symmetry.
    assert (forall l l', incl l (m_relationships m) -> incl l' (requests cs) -> Forall2 (fun q r => exists c, h_cells h q = Some c /\ n_data c = NRelationship (snd r) /\ n_parent c = get_feature m (fst r)) l l' -> map (fun x => knot (fst x)) l' = l) as K.
    { intros l l' A B F. induction F as [|i r l l' (c & C & Dc & Pc) F IH]; [reflexivity|]. cbn [map]. f_equal; [|apply IH; intros x X; [apply A|apply B]; right; exact X].
      assert (Ii : In i (m_relationships m)) by (apply A; left; reflexivity). apply (Permutation_in _ (rep_groups _ _ _ R)) in Ii. apply groups_subtree in Ii. destruct Ii as (q & k & Q & <- & Dq).
      assert (Tk : taken d (fst r)). { apply groups_of_iff. unfold groups_of. apply in_map. apply B. left. reflexivity. } apply (declared_in cs d h m t R AD) in Tk. destruct Tk as (p & Gp). rewrite Gp in Pc.
      destruct (parent_subtree h m t R q p c Q C Pc) as (v & V & Ev & Iq). destruct (get_stored h m t R _ p Gp) as (g & Sg & Ng). apply (stored_sub h m t R) in Sg. destruct Sg as (u & U & Eu & Du).
      assert (v = u) as -> by (apply (subtree_unique t); [apply (rep_ids _ _ _ R)|exact V|exact U|congruence]). rewrite <- Ng. exact (knot_node u g q k U Du Iq Dq). }
    exact (K _ _ (incl_refl _) (incl_refl _) (ad_groups _ _ _ _ AD)).
Qed.
Theorem drawings_picture its : draws h m t its -> drawn cs0 d its.
Proof.
  intros [Dn Dl De Do Dc Dx]. exists box, knot, groups_of. constructor.
  - split; [exact (de_groups _ _ DE)|exact groups_of_iff].
  - rewrite Dn. exact (rep_ids _ _ _ R).
  - rewrite Dn. exact drawn_nodes.
  - intros f If. destruct (feature_placed cs d h m t R AD f If) as (u & P). rewrite (box_placed u f P). destruct (Dl u (proj1 (proj2 P))) as (s & l & I & L). destruct P as (_ & U & g & D & (Sk & Sn & So & Sl & Sop)). rewrite D in L. destruct L as (-> & rows & Rr & Lr).
    exists l, rows. split; [exact I|]. split; [exact Lr|]. destruct Rr as (n & o & xs & ys & ls & A & B & C & E & F & ->). exists n, o, xs, ys, ls. rewrite <- Sn, <- So, <- Sl. split; [exact A|]. split; [exact B|]. split; [|auto].
    destruct (proj1 (stored_is h m t R _ _) (sub_stored h m t R u g U D)) as (Gu & Fu). exact (rows_mentioning (rid u) g xs Gu Fu C).
  - intros s I. destruct (knot_kid s I) as (u & g & q & U & D & N & Iq & Dq & ->). destruct (Dl q) as (sh & l & J & L); [destruct u as [n du ts]; exact (subtree_trans _ _ _ (subtree_kid n du ts q Iq) U)|]. rewrite Dq in L. destruct L as (-> & ->). exact J.
  - intros ((p & c) & a). rewrite De. split.
    + intros (u & k & U & Ik & -> & -> & ->). destruct (rdata u) as [g|ku] eqn:Du.
      * destruct (rdata k) as [gk|kk] eqn:Dk.
        -- left. destruct (feature_kid cs d h m t R AD DE u g k gk U Du Ik Dk) as (f & P & B & N). exists (f_name g), f. split; [apply (below_same cs cs0 d Ed); exact B|]. split; [apply (ungrouped_same cs cs0 d Gr); exact N|]. rewrite (box_node u g U Du), (box_placed k f P), <- (head_placed k f P), Dk. reflexivity.
        -- right. left. pose proof (group_kid cs d h m t R AD u g k kk U Du Ik Dk) as Rq. exists (f_name g). split; [unfold groups_of; apply in_map_iff; exists (f_name g, kk); auto|]. rewrite (box_node u g U Du), (knot_node u g k kk U Du Ik Dk). reflexivity.
      * right. right. destruct (subtree_parent u t U) as [->|(v & V & Iu)]; [exfalso; destruct (root_placed cs d h m t R AD) as (_ & _ & g & D & _); congruence|].
        pose proof (grouped_sub v t V (rep_shape _ _ _ R)) as G. destruct v as [n [gv|kv] ts]; [|exfalso; inversion G as [|? ? ? Fe ? E]; subst; cbn [kids] in Iu; rewrite Forall_forall in Fe; specialize (Fe u Iu); rewrite Du in Fe; discriminate].
        destruct (member_kid cs d h m t R AD DE _ gv u ku k V eq_refl Iu Du Ik) as (f & P & B). exists (f_name gv), f. split; [apply (below_same cs cs0 d Ed); exact B|].
        pose proof (group_kid cs d h m t R AD _ gv u ku V eq_refl Iu Du) as Rq. apply Gr in Rq. split; [exact (proj2 Rq)|]. rewrite (knot_node _ gv u ku V eq_refl Iu Du), (box_placed k f P), (head_placed k f P). reflexivity.
    + intros [(s & f & B & N & E)|[(s & I & E)|(s & f & B & A & E)]]; injection E as -> -> ->.
      * apply (below_same cs cs0 d Ed) in B. destruct (taken_node s (below_taken s f B)) as (u & g & U & D & <-). pose proof (proj2 (ungrouped_same cs cs0 d Gr _) N) as N'. destruct (found_kid cs d h m t R AD DE u g f U D B N') as (v & Iv & P).
        exists u, v. split; [exact U|]. split; [exact Iv|]. split; [exact (box_node u g U D)|]. split; [exact (box_placed v f P)|]. symmetry. exact (head_placed v f P).
      * destruct (knot_kid s I) as (u & g & q & U & D & <- & Iq & Dq & Ek). exists u, q. split; [exact U|]. split; [exact Iq|]. split; [exact (box_node u g U D)|]. split; [exact Ek|]. rewrite Dq. reflexivity.
      * apply (below_same cs cs0 d Ed) in B. pose proof (below_taken s f B) as Tk. destruct (knot_kid s) as (u & g & q & U & D & <- & Iq & Dq & Ek); [apply groups_of_iff; auto|]. destruct (found_member cs d h m t R AD DE u g f q _ U D B Iq Dq) as (v & Iv & P).
        exists q, v. split; [destruct u as [n du ts]; exact (subtree_trans _ _ _ (subtree_kid n du ts q Iq) U)|]. split; [exact Iv|]. split; [exact Ek|]. split; [exact (box_placed v f P)|]. symmetry. exact (head_placed v f P).
  - exact Do.
Qed.
End Shown.
