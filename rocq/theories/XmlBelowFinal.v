(** Writing a model with nobody called root or base and reading the document back. *)
From Coq Require Import List ZArith NArith Arith Bool Ascii String Permutation Lia.
From Verif Require Import Text TextProofs NumSpec LlvmInt ConstraintModel ConstraintParserModel ConstraintSpec ConstraintRoundTrip SourceRangeModel FeatureTreeModel FeatureTreeSpec FeatureTransactionModel
  FeatureTransactionSpec FeatureEditSpec FeatureTreeProofs FeatureOrderProofs FeatureEditProofs FeatureTransactionFinal FeatureDataProofs FeatureCloneSpec FeatureCloneProofs FeatureMergeResult FeatureBuildSpec SxfmModel SxfmFinal XmlModel
  XmlWriterModel XmlSpec XmlDetectProofs XmlDetectFinal XmlReadProofs XmlFinal XmlTripSpec XmlTripText XmlTripWrite XmlTripOption XmlTripCalls XmlTripDoc XmlTripFinal XmlBelowSpec XmlBelowCalls.
Import ListNotations.
Local Open Scope string_scope.
Local Open Scope list_scope.
Local Open Scope nat_scope.

Section Model.
Variable ord : list nid -> list nid.
Hypothesis ord_ok : is_order ord.
Variables (h : heap) (m : fmodel) (t : tree).
Hypothesis R : represents h m t.
Hypothesis En : enrolled h m.
Hypothesis Rs : all_resolved m.
Hypothesis W : writable_below h m.

Variables (ids : list nid) (ls : list (list bcall)) (bs ns xs : list bcall).
Hypothesis Pi : Permutation ids (feature_ids t).
Hypothesis Ni : NoDup ids.
Hypothesis Ca : Forall2 (calls_at h m) ids ls.
Hypothesis C3 : Forall2 (plain_call_of h KBoolean) (others m) bs.
Hypothesis C4 : Forall2 (plain_call_of h KNonBoolean) (m_nonboolean m) ns.
Hypothesis C5 : Forall2 (mixed_call_of h) (m_mixed m) xs.
Definition all_calls : list bcall := head_calls m ++ List.concat ls ++ bs ++ ns ++ xs.

Local Notation from_option := (XmlTripFinal.from_option h m).
Let spelled_declared := XmlTripFinal.spelled_declared h m t R Rs.
Lemma id_in i : In i ids <-> exists s, get_feature m s = Some i.
Proof. rewrite <- (in_features h m t R). split; apply Permutation_in; [exact Pi|apply Permutation_sym, Pi]. Qed.
Lemma calls_of i s : get_feature m s = Some i -> exists f l, feature_at h i = Some f /\ f_name f = s /\ In l ls /\ option_calls h m i f l.
Proof.
  intros G. destruct (forall2_left _ _ _ Ca i) as (l & L & f & F & O); [apply id_in; eauto|]. exists f, l. split; [exact F|]. split; [exact (name_unique h m t R i s f G F)|auto].
Qed.
Lemma calls_from c : In c (List.concat ls) -> exists i f l, get_feature m (f_name f) = Some i /\ feature_at h i = Some f /\ option_calls h m i f l /\ In c l.
Proof.
  intros I. apply in_concat in I. destruct I as (l & L & I). destruct (forall2_right _ _ _ Ca l L) as (i & Ii & f & F & O). exists i, f, l.
  apply id_in in Ii. destruct Ii as (s & G). rewrite (name_unique h m t R i s f G F). auto.
Qed.
Lemma edges p s : In (BEdge p s) all_calls <-> parent_named h m s p.
Proof.
  unfold all_calls. rewrite !in_app_iff. split.
  - intros [I|[I|[I|[I|I]]]].
    + cbn in I. destruct I as [I|[I|[I|[]]]]; discriminate.
    + destruct (calls_from _ I) as (i & f & l & _ & _ & O & I'). exact (oc_edges _ _ _ _ _ O p s I').
    + destruct (forall2_right _ _ _ C3 _ I) as (c & _ & e & _ & X). discriminate.
    + destruct (forall2_right _ _ _ C4 _ I) as (c & _ & e & _ & X). discriminate.
    + destruct (forall2_right _ _ _ C5 _ I) as (c & _ & e & _ & X). discriminate.
  - intros X. destruct X as (i & q & G & Gp & Ab). destruct (calls_of i s G) as (f & l & F & <- & L & O). right. left. apply in_concat. exists l. split; [exact L|]. apply (oc_parent _ _ _ _ _ O). exists i, q. auto.
Qed.
Lemma constraint_calls k x : In (BConstraint k x) all_calls <->
  from_option k x \/ (exists c e, k = KBoolean /\ In c (others m) /\ spelled h (c_expr c) e /\ x = named_leaves (excludes_as_implies e)) \/
  (exists c e, k = KNonBoolean /\ In c (m_nonboolean m) /\ spelled h (c_expr c) e /\ x = named_leaves (excludes_as_implies e)) \/
  (exists c e, k = KMixed (x_req c) (x_kind c) /\ In c (m_mixed m) /\ spelled h (c_expr (x_con c)) e /\ x = named_leaves (excludes_as_implies e)).
Proof.
  unfold all_calls. rewrite !in_app_iff. split.
  - intros [I|[I|[I|[I|I]]]].
    + cbn in I. destruct I as [I|[I|[I|[]]]]; discriminate.
    + left. destruct (calls_from _ I) as (i & f & l & G & F & O & I'). apply (oc_constraints _ _ _ _ _ O) in I'. destruct I' as (-> & o & n & Ho & Sy & ->). split; [reflexivity|]. exists i, f, o, n. auto.
    + right. left. destruct (forall2_right _ _ _ C3 _ I) as (c & Ic & e & Sp & X). injection X as -> ->. exists c, e. auto.
    + right. right. left. destruct (forall2_right _ _ _ C4 _ I) as (c & Ic & e & Sp & X). injection X as -> ->. exists c, e. auto.
    + right. right. right. destruct (forall2_right _ _ _ C5 _ I) as (c & Ic & e & Sp & X). injection X as -> ->. exists c, e. auto.
  - intros [X|[X|[X|X]]].
    + destruct X as (-> & i & f & o & n & G & F & Ho & Sy & ->). destruct (calls_of i _ G) as (f' & l & F' & _ & L & O). assert (f' = f) as -> by congruence. right. left. apply in_concat. exists l. split; [exact L|].
      apply (oc_constraints _ _ _ _ _ O). split; [reflexivity|]. exists o, n. auto.
    + destruct X as (c & e & -> & I & Sp & ->). destruct (forall2_left _ _ _ C3 c I) as (b & B & e' & Sp' & ->). rewrite (spelled_unique h _ _ _ Sp Sp'). auto.
    + destruct X as (c & e & -> & I & Sp & ->). destruct (forall2_left _ _ _ C4 c I) as (b & B & e' & Sp' & ->). rewrite (spelled_unique h _ _ _ Sp Sp'). auto.
    + destruct X as (c & e & -> & I & Sp & ->). destruct (forall2_left _ _ _ C5 c I) as (b & B & e' & Sp' & ->). rewrite (spelled_unique h _ _ _ Sp Sp'). auto 6.
Qed.
(** ** The declared features *)
Definition back_at (i : nid) (g : feature) : Prop := exists f, feature_at h i = Some f /\ back (demoted f) g /\ f_kind g <> FRoot.
Lemma demoted_name f : f_name (demoted f) = f_name f.
Proof. unfold demoted. destruct (f_kind f); reflexivity. Qed.
Lemma decls_features js : forall ks, Forall2 (calls_at h m) js ks -> exists gs, Forall2 back_at js gs /\ decls (List.concat ks) = map BFeature gs.
Proof.
  induction js as [|j js IH]; intros ks X; inversion X as [|? k ? ks' (f & F & O) X']; subst; [exists []; split; [constructor|reflexivity]|].
  destruct (IH ks' X') as (gs & Fg & Eg). destruct (oc_decl _ _ _ _ _ O) as (c & Ec & g & -> & B & K).
  exists (g :: gs). split; [constructor; [exists f; auto|exact Fg]|]. cbn [List.concat map]. rewrite decls_app, Ec, Eg. reflexivity.
Qed.
Lemma declared : exists gs, declares (default_root, []) all_calls (default_root, gs) /\ (forall g, In g gs -> exists i, back_at i g /\ get_feature m (f_name g) = Some i) /\
  (forall i s, get_feature m s = Some i -> exists g, In g gs /\ back_at i g /\ f_name g = s) /\ (forall c, In c all_calls -> ordinary c).
Proof.
  destruct (decls_features ids ls Ca) as (gs & Bk & Dg).
  assert (Dc : decls all_calls = map BFeature gs).
  { unfold all_calls. rewrite !decls_app, Dg. assert (decls bs = []) as -> by (apply (constraint_decls _ _ _ C3); intros ? b (e & _ & ->); eauto). assert (decls ns = []) as -> by (apply (constraint_decls _ _ _ C4); intros ? b (e & _ & ->); eauto).
    assert (decls xs = []) as -> by (apply (constraint_decls _ _ _ C5); intros ? b (e & _ & ->); eauto). rewrite !app_nil_r. reflexivity. }
  assert (Gn : forall i g, In i ids -> back_at i g -> get_feature m (f_name g) = Some i).
  { intros i g Ii (f' & F' & (En' & _) & _). rewrite En', demoted_name. apply id_in in Ii. destruct Ii as (s & G). rewrite (name_unique h m t R i s f' G F'). exact G. }
  assert (P1 : forall g, In g gs -> exists i, back_at i g /\ get_feature m (f_name g) = Some i).
  { intros g I. destruct (forall2_right _ _ _ Bk g I) as (i & Ii & B). exists i. auto. }
  assert (P2 : forall i s, get_feature m s = Some i -> exists g, In g gs /\ back_at i g /\ f_name g = s).
  { intros i s G. assert (Ii : In i ids) by (apply id_in; eauto). destruct (forall2_left _ _ _ Bk i Ii) as (g & Ig & B). exists g. split; [exact Ig|]. split; [exact B|]. destruct B as (f' & F' & (En' & _) & _).
    rewrite En', demoted_name. exact (name_unique h m t R i s f' G F'). }
  assert (Nn : NoDup (map f_name gs)).
  { assert (X : forall js gs, Forall2 back_at js gs -> NoDup js -> (forall i, In i js -> In i ids) -> NoDup (map f_name gs)).
    { intros js gs0 X. induction X as [|i g js gs0 B X IH]; intros N S1; [constructor|]. apply NoDup_cons_iff in N. cbn [map]. constructor; [|apply IH; [apply N|intros x I; apply S1; right; exact I]].
      intros I. apply in_map_iff in I. destruct I as (g' & Eg & Ig). destruct (forall2_right _ _ _ X g' Ig) as (i' & Ii & B'). pose proof (Gn i g (S1 i (or_introl eq_refl)) B) as A1. pose proof (Gn i' g' (S1 i' (or_intror Ii)) B') as A2. rewrite Eg in A2. apply (proj1 N). congruence. }
    apply (X ids); auto. }
  exists gs. split; [|split; [exact P1|split; [exact P2|]]].
  - apply declares_decls. rewrite Dc, <- (app_nil_r (map BFeature gs)). apply declares_features; [exact Nn| |constructor].
    intros g I [X|[]]. destruct (P1 g I) as (i & _ & G). exact (proj1 (wb_names h m W _ i G) X).
  - intros x I. destruct x; try exact Logic.I. assert (X : In (BFeature f) (decls all_calls)) by (apply decls_in; auto). rewrite Dc in X. apply in_map_iff in X. destruct X as (g & X & J). injection X as <-.
    destruct (P1 g J) as (i & (f' & _ & _ & K) & _). exact K.
Qed.

(** ** The calls describe the model *)
Section Described.
Variable gs : list feature.
Local Notation rn := default_root.
Hypothesis Dc : declares (default_root, []) all_calls (rn, gs).
Hypothesis G1 : forall g, In g gs -> exists i, back_at i g /\ get_feature m (f_name g) = Some i.
Hypothesis G2 : forall i s, get_feature m s = Some i -> exists g, In g gs /\ back_at i g /\ f_name g = s.
Hypothesis Od : forall c, In c all_calls -> ordinary c.
Hypothesis Rq : requests all_calls = [].

Lemma taken_iff s : taken (rn, gs) s <-> s = rn \/ exists i, get_feature m s = Some i.
Proof.
  split.
  - intros [->|X]; [left; reflexivity|right]. cbn [snd] in X. apply in_map_iff in X. destruct X as (g & <- & I). destruct (G1 g I) as (i & _ & G). eauto.
  - intros [-> |(i & G)]; [left; reflexivity|]. destruct (G2 i s G) as (g & I & _ & <-). right. apply in_map. exact I.
Qed.
Lemma not_new s i : get_feature m s = Some i -> s <> rn.
Proof. intros G. exact (proj1 (wb_names h m W s i G)). Qed.
Lemma no_edge s d : get_feature m s = Some (rid t) -> last_edge all_calls s d = d.
Proof. intros G. apply last_edge_ok; [|right; reflexivity]. intros q I. apply edges in I. destruct (no_parent_root h m t R s q G I). Qed.
Lemma last_parent s p d : parent_named h m s p -> last_edge all_calls s d = p.
Proof.
  intros P. apply last_edge_ok; [|left; apply edges; exact P]. intros q I. apply edges in I. exact (proj2 (parent_names h m t R s p P) q I).
Qed.
Lemma constraint_declared k x : In (BConstraint k x) all_calls -> mentions_declared (rn, gs) x.
Proof.
  intros I. apply constraint_calls in I.
  assert (Sp : forall c e, In c (all_constraints m) -> spelled h (c_expr c) e -> mentions_declared (rn, gs) (named_leaves (excludes_as_implies e))).
  { intros c e Ic Sp r J. rewrite named_leaves_cmap, leaves_cmap in J. apply in_map_iff in J. destruct J as (u & <- & J). rewrite leaves_implies in J. destruct (spelled_declared c e Ic Sp u J) as (i & G & _). exists (T u). split; [reflexivity|]. apply taken_iff. right. eauto. }
  unfold all_constraints in Sp. destruct I as [I|[I|[I|I]]].
  - destruct I as (_ & i & f & o & n & G & F & _ & (j & Gj & _) & ->). intros r J. cbn in J. destruct J as [<-|[<-|[]]]; eexists; (split; [reflexivity|]); apply taken_iff; right; eauto.
  - destruct I as (c & e & _ & I & S1 & ->). apply (Sp c e); [|exact S1]. apply filter_In in I. apply in_app_iff. left. apply I.
  - destruct I as (c & e & _ & I & S1 & ->). apply (Sp c e); [|exact S1]. rewrite !in_app_iff. auto.
  - destruct I as (c & e & _ & I & S1 & ->). apply (Sp (x_con c) e); [|exact S1]. rewrite !in_app_iff. right. right. apply in_map. exact I.
Qed.
Lemma no_relationship k p : ~ In (BRelationship k p) all_calls.
Proof.
  intros I. assert (X : In (p, k) (requests all_calls)) by (unfold requests; apply in_flat_map; exists (BRelationship k p); split; [exact I|left; reflexivity]). rewrite Rq in X. destruct X.
Qed.
Lemma described : describes all_calls (rn, gs).
Proof.
  constructor.
  - exact Dc.
  - exact Od.
  - intros c I. destruct c as [f|u|p u|k p|k e|u|u|u]; try exact Logic.I. cbn [edge_ok]. apply edges in I. destruct (parent_names h m t R u p I) as (N & _). destruct I as (i & q & G & Gp & _). rewrite !taken_iff. split; [right; eauto|]. split; [right; eauto|exact N].
  - intros p s I E. cbn [fst] in E. subst s. apply edges in I. destruct I as (i & q & G & _). exact (not_new _ i G eq_refl).
  - cbn [fst snd]. intros f I. destruct (G1 f I) as (i & _ & G). revert f I G. assert (X : forall i, In i (feature_ids t) -> forall s, get_feature m s = Some i -> leads (fun s => last_edge all_calls s rn) rn s).
    { apply (climb h m t R (fun i => forall s, get_feature m s = Some i -> leads (fun s => last_edge all_calls s rn) rn s)).
      - intros s G. apply leads_up. rewrite (no_edge s rn G). constructor.
      - intros j p Ij Ip A IH s G. destruct (id_data h m t R p Ip) as (f & F & Gp). apply leads_up. rewrite (last_parent s (f_name f)) by (exists j, p; auto). apply IH. exact Gp. }
    intros f I G. exact (X i (in_ids h m t R _ _ G) _ G).
  - intros c I. destruct c as [f|u|p u|k p|k e|u|u|u]; try exact Logic.I; cbn [relation_ok]; [destruct (no_relationship k p I)|exact (constraint_declared k e I)].
  - rewrite Rq. constructor.
Qed.

(** ** The model read back *)
Section Back.
Variables (h' : heap) (m' : fmodel) (ps : list text).
Let cs' := all_calls ++ groups_at ps.
Hypothesis A : as_described cs' (rn, gs) h' m'.
Hypothesis D2 : describes cs' (rn, gs).
Hypothesis Al : forall s p, get_feature m' s = Some p ->
  (group_of h' m' p RAlternative <-> exclusive_children h' m' p) /\ ~ group_of h' m' p ROr /\
  forall i, child_in h' m' p i -> (exclusive_children h' m' p -> hangs h' i p (Some RAlternative)) /\ (~ exclusive_children h' m' p -> hangs h' i p None).

Lemma constraint_in k x : In (BConstraint k x) cs' <-> In (BConstraint k x) all_calls.
Proof. unfold cs'. rewrite in_app_iff. split; [|auto]. intros [I|I]; [exact I|]. apply in_map_iff in I. destruct I as (y & X & _). discriminate. Qed.
Lemma both s : (s = rn \/ exists i, get_feature m s = Some i) <-> exists i, get_feature m' s = Some i.
Proof. rewrite <- taken_iff. apply (get_taken _ _ _ _ A). Qed.
Lemma kept s i : get_feature m s = Some i -> exists i', get_feature m' s = Some i'.
Proof. intros G. apply both. right. eauto. Qed.
Lemma back_features s i f : get_feature m s = Some i -> feature_at h i = Some f -> exists i' g, get_feature m' s = Some i' /\ feature_at h' i' = Some g /\ back (demoted f) g.
Proof.
  intros G F. destruct (G2 i s G) as (g & Ig & (f0 & F0 & B & _) & <-). assert (f0 = f) as -> by congruence. destruct (ad_data _ _ _ _ A g Ig) as (i' & g' & G' & F' & (K & Nm & Out & Loc & Op)). exists i', g'. split; [exact G'|]. split; [exact F'|].
  unfold back in *. rewrite K, Nm, Out, Loc, Op. exact B.
Qed.
Lemma back_parents s p : parent_named h' m' s p <-> parent_named h m s p \/ (get_feature m s <> None /\ get_feature m s = m_root m /\ p = rn).
Proof.
  split.
  - intros (i & q & G & Gp & Ab). assert (C : child_in h' m' q i) by (split; eauto). apply (child_below _ _ _ _ A p q i Gp) in C. destruct C as (f & (If & E) & Gf).
    pose proof (get_inj _ _ _ _ A _ _ _ G Gf) as ->. cbn [fst snd] in *. unfold cs' in E. rewrite last_edge_groups in E. destruct (G1 f If) as (j & _ & Gj). destruct (Nat.eq_dec j (rid t)) as [->|N].
    + right. rewrite Gj, (top_id h m t R). rewrite (no_edge _ _ Gj) in E. split; [discriminate|]. auto.
    + left. destruct (parent_exists h m t R _ j Gj N) as (p' & P). rewrite (last_parent _ p' _ P) in E. subst p'. exact P.
  - assert (X : forall i q', get_feature m s = Some i -> get_feature m' p = Some q' -> last_edge all_calls s rn = p -> parent_named h' m' s p).
    { intros i q' G Gq' E. destruct (G2 i s G) as (f & If & _ & <-). destruct (kept _ i G) as (i' & G'). exists i', q'. split; [exact G'|]. split; [exact Gq'|].
      assert (C : child_in h' m' q' i'); [|apply C]. apply (child_below _ _ _ _ A p q' i' Gq'). exists f. split; [|exact G']. split; [exact If|]. cbn [fst]. unfold cs'. rewrite last_edge_groups. exact E. }
    intros [P|(Nn & E & ->)].
    + pose proof P as (i & q & G & Gp & Ab). destruct (kept p q Gp) as (q' & Gq'). exact (X i q' G Gq' (last_parent _ p _ P)).
    + destruct (proj1 (both rn) (or_introl eq_refl)) as (q' & Gq'). destruct (get_feature m s) as [i|] eqn:G; [|contradiction]. apply (X i q' eq_refl Gq'). apply no_edge. rewrite G, E. exact (top_id h m t R).
Qed.
Lemma back_optional f g : back (demoted f) g -> f_optional g = f_optional f.
Proof. unfold back, demoted. intros (_ & _ & _ & B). destruct (f_kind f) eqn:K; cbn [f_kind f_optional] in B; rewrite ?K in B; apply B. Qed.

Lemma spelled_named x : mentions_declared (rn, gs) x -> forall e, spelled h' (cmap (pointing m') x) e <-> x = named_leaves e.
Proof.
  unfold mentions_declared. induction x as [o l IHl r IHr|o x IH|n|r]; intros M e; cbn [cmap leaves] in *.
  - assert (Ml := fun r I => M r (in_or_app _ _ _ (or_introl I))). assert (Mr := fun r I => M r (in_or_app _ _ _ (or_intror I))). split.
    + intros X. inversion X as [? ? ? l' r' Xl Xr| | |]; subst. apply IHl in Xl; [|exact Ml]. apply IHr in Xr; [|exact Mr]. subst. reflexivity.
    + destruct e; cbn [named_leaves]; try discriminate. intros X. injection X as -> -> ->. constructor; [apply IHl|apply IHr]; auto.
  - split.
    + intros X. inversion X; subst. cbn [named_leaves]. f_equal. apply IH; auto.
    + destruct e; cbn [named_leaves]; try discriminate. intros X. injection X as -> ->. constructor. apply IH; auto.
  - split; [intros X; inversion X; reflexivity|]. destruct e; cbn [named_leaves]; try discriminate. intros X. injection X as ->. constructor.
  - destruct (M r (or_introl eq_refl)) as (s & -> & Ts). apply (get_taken _ _ _ _ A) in Ts. destruct Ts as (i & G). cbn [pointing]. rewrite G. destruct (get_data _ _ _ _ A s i G) as (f & F & N). split.
    + intros X. inversion X as [| | |? u C]; subst. cbn [called_in] in C. destruct C as (f' & F' & N'). assert (f' = f) as -> by congruence. cbn [named_leaves]. congruence.
    + destruct e; cbn [named_leaves]; try discriminate. intros X. injection X as ->. constructor. exists f. auto.
Qed.
Lemma boolean_calls e : In (BConstraint KBoolean (named_leaves e)) all_calls <-> boolean_back h m e.
Proof.
  rewrite constraint_calls. split.
  - intros [I|[I|[I|I]]].
    + destruct I as (_ & i & f & o & n & G & F & Ho & Sy & E). destruct e as [o' l r| | |]; try discriminate. destruct l as [| | |a]; try discriminate; destruct r as [| | |b]; try discriminate. cbn [named_leaves] in E. injection E as -> Ea Eb.
      rewrite <- (U_T a), Ea, <- (U_T b), Eb. exact (says_pair h m t R o i f n G F Ho Sy).
    + destruct I as (c & e0 & _ & I & Sp & E). apply named_leaves_inj in E. subst e. right. right. exists e0. split; [reflexivity|]. apply filter_In in I. destruct I as (I & Np). split; [|exists c; auto].
      intros P. apply (spelled_pair h _ _ Sp) in P. apply is_pair_iff in P. rewrite P in Np. discriminate.
    + destruct I as (c & e0 & X & _). discriminate.
    + destruct I as (c & e0 & X & _). discriminate.
  - intros [(P & c & I & Sp)|[(a & b & i & j & -> & Ga & Gb & N & Tg)|(e0 & -> & Np & c & I & Sp)]].
    + left. split; [reflexivity|]. destruct P as (o & a & b & Ho & ->). destruct (spelled_declared c _ I Sp a (or_introl eq_refl)) as (i & Ga & _). destruct (spelled_declared c _ I Sp b (or_intror (or_introl eq_refl))) as (j & Gb & _).
      destruct (id_data h m t R i (in_ids h m t R _ _ Ga)) as (f & F & G). pose proof (name_unique h m t R _ _ f Ga F) as Nf. exists i, f, o, (T b). split; [exact G|]. split; [exact F|]. split; [exact Ho|]. split.
      * exists j. split; [exact Gb|]. left. exact (pair_option h m t R Rs o a b i j c I Sp Ga Gb).
      * cbn [named_leaves]. rewrite Nf. reflexivity.
    + left. split; [reflexivity|]. destruct (id_data h m t R i (in_ids h m t R _ _ Ga)) as (f & F & G). pose proof (name_unique h m t R _ _ f Ga F) as Nf. exists i, f, BExcludes, (T b). split; [exact G|]. split; [exact F|]. split; [auto|]. split.
      * exists j. split; [exact Gb|]. right. auto.
      * cbn [named_leaves]. rewrite Nf. reflexivity.
    + right. left. exists c, e0. split; [reflexivity|]. split; [|auto]. apply filter_In. split; [exact I|]. destruct (is_pair (c_expr c)) eqn:P; [|reflexivity]. apply is_pair_iff, (spelled_pair h _ _ Sp) in P. contradiction.
Qed.
Lemma back_boolean e : stated h' (m_boolean m') e <-> boolean_back h m e.
Proof.
  rewrite <- boolean_calls. pose proof (ad_boolean _ _ _ _ A) as B.
  assert (L : forall x, In x (flat_map (fun x => match fst x with KBoolean => [snd x] | _ => [] end) (constraints_of cs')) <-> In (BConstraint KBoolean x) all_calls).
  { intros x. rewrite <- constraint_in, <- (constraints_of_in cs'). rewrite in_flat_map. split.
    - intros ((k & y) & I & J). cbn [fst snd] in J. destruct k; try destruct J. subst y. exact I. contradiction.
    - intros I. exists (KBoolean, x). split; [exact I|left; reflexivity]. }
  split.
  - intros (c & I & Sp). destruct (forall2_right _ _ _ B c I) as (x & Ix & Lk). apply L in Ix. unfold links_to in Lk. rewrite Lk in Sp. apply spelled_named in Sp; [|exact (constraint_declared _ _ Ix)]. subst x. exact Ix.
  - intros I. destruct (forall2_left _ _ _ B (named_leaves e)) as (c & Ic & Lk); [apply L; exact I|]. exists c. split; [exact Ic|]. unfold links_to in Lk. rewrite Lk. apply spelled_named; [exact (constraint_declared _ _ I)|reflexivity].
Qed.
Lemma back_exclusion x y a b a' b' : get_feature m x = Some a -> get_feature m y = Some b -> get_feature m' x = Some a' -> get_feature m' y = Some b' -> b <> a -> (states_exclusion m' a' b' <-> together h a b \/ states_exclusion m a b).
Proof.
  intros Ga Gb Ga' Gb' N. rewrite (exclusion_described _ _ _ _ D2 A x y a' b' Ga' Gb'). unfold excluding. split.
  - intros (k & I). apply constraint_in, constraint_calls in I. 
    assert (No : forall e, CBin BExcludes (CFeat (Own x)) (CFeat (Own y)) <> named_leaves (excludes_as_implies e)) by (intros [[] l r| | |]; discriminate).
    destruct I as [I|[I|[I|I]]]; [|destruct I as (c & e & _ & _ & _ & X); destruct (No e X)..].
    destruct I as (_ & i & f & o & n & G & F & Ho & (j & Gj & Sy) & E). injection E as <- -> <-. assert (i = a) as -> by congruence. assert (j = b) as -> by congruence. destruct Sy as [Sy|(_ & _ & Sy)]; [right; exact Sy|left; exact Sy].
  - intros Sy. exists KBoolean. apply constraint_in, constraint_calls. left. split; [reflexivity|]. destruct (id_data h m t R a (in_ids h m t R _ _ Ga)) as (f & F & G). pose proof (name_unique h m t R _ _ f Ga F) as Nf. exists a, f, BExcludes, y.
    rewrite Nf. split; [exact Ga|]. split; [exact F|]. split; [auto|]. split; [|reflexivity]. exists b. split; [exact Gb|]. destruct Sy as [Sy|Sy]; [right; auto|left; exact Sy].
Qed.
Lemma back_apart s p p' : get_feature m s = Some p -> get_feature m' s = Some p' -> (exclusive_children h' m' p' <-> apart h m p).
Proof.
  intros G G'. assert (Ch := fun i => child_name h m p i s (names_data h m t R) G). assert (Ch' := fun i => child_name h' m' p' i s (get_data _ _ _ _ A) G').
  assert (To : forall i, child_in h m p i -> exists x i', get_feature m x = Some i /\ get_feature m' x = Some i' /\ child_in h' m' p' i').
  { intros i C. apply Ch in C. destruct C as (x & Gx & P). destruct (kept x i Gx) as (i' & Gx'). exists x, i'. split; [exact Gx|]. split; [exact Gx'|]. apply Ch'. exists x. split; [exact Gx'|]. apply back_parents. left. exact P. }
  assert (Fro : forall i', child_in h' m' p' i' -> exists x i, get_feature m x = Some i /\ get_feature m' x = Some i' /\ child_in h m p i).
  { intros i' C. apply Ch' in C. destruct C as (x & Gx & P). apply back_parents in P. destruct P as [P|(_ & _ & ->)]; [|destruct (not_new _ p G eq_refl)]. pose proof P as (i & _ & Gx' & _). exists x, i. split; [exact Gx'|]. split; [exact Gx|]. apply Ch. exists x. auto. }
  assert (Opt : forall x i i', get_feature m x = Some i -> get_feature m' x = Some i' -> child_in h m p i -> ((exists f, feature_at h' i' = Some f /\ f_optional f = false) <-> exists f, feature_at h i = Some f /\ f_optional f = false)).
  { intros x i i' Gx Gx' C. destruct ((names_data h m t R) x i Gx) as (f & F & _). destruct (back_features x i f Gx F) as (j & g & Gj & Fg & B). assert (j = i') as -> by congruence. pose proof (back_optional f g B) as O.
    split; intros (f' & F' & X); [exists f|exists g]; (split; [assumption|]); congruence. }
  split.
  - intros ((a' & b' & Ka & Kb & N) & X). split.
    + destruct (Fro a' Ka) as (x & a & Ga & Ga' & Ca'). destruct (Fro b' Kb) as (y & b & Gb & Gb' & Cb'). exists a, b. split; [exact Ca'|]. split; [exact Cb'|]. intros ->. rewrite (same_name h m t R x y b Ga Gb) in Ga'. congruence.
    + intros a Ka0. destruct (To a Ka0) as (x & a2 & Ga & Ga' & Ca'). destruct (X a2 Ca') as (O & E). split; [apply (Opt x a a2); auto|]. intros b Kb0 Nb. destruct (To b Kb0) as (y & b2 & Gb & Gb' & Cb').
      apply (back_exclusion x y a b a2 b2); auto. apply E; [exact Cb'|]. intros ->. apply Nb. rewrite (get_inj _ _ _ _ A x y a2 Ga' Gb') in Ga. congruence.
  - intros ((a & b & Ka & Kb & N) & X). split.
    + destruct (To a Ka) as (x & a' & Ga & Ga' & Ca'). destruct (To b Kb) as (y & b' & Gb & Gb' & Cb'). exists a', b'. split; [exact Ca'|]. split; [exact Cb'|]. intros ->. rewrite (get_inj _ _ _ _ A x y b' Ga' Gb') in Ga. congruence.
    + intros a' Ka0. destruct (Fro a' Ka0) as (x & a2 & Ga & Ga' & Ca'). destruct (X a2 Ca') as (O & E). split; [apply (Opt x a2 a'); auto|]. intros b' Kb0 Nb. destruct (Fro b' Kb0) as (y & b2 & Gb & Gb' & Cb').
      assert (b2 <> a2) by (intros ->; apply Nb; rewrite (same_name h m t R x y a2 Ga Gb) in Ga'; congruence). apply (back_exclusion x y a2 b2 a' b'); auto.
Qed.

Lemma kinds_parts {B} (g : ckind * cexpr cref -> list B) : (forall x, g (KBoolean, x) = []) ->
  flat_map g (constraints_of cs') = flat_map g (constraints_of ns) ++ flat_map g (constraints_of xs).
Proof.
  intros N. unfold cs', all_calls. rewrite !kinds_app. rewrite (kinds_none g (groups_at ps)), (kinds_none g (head_calls m)), (kinds_none g (List.concat ls)), (kinds_none g bs); [rewrite app_nil_r; reflexivity| | | |].
  - intros k x I. destruct (forall2_right _ _ _ C3 _ I) as (c & _ & e & _ & X). injection X as -> ->. apply N.
  - intros k x I. destruct (calls_from _ I) as (i & f & l & _ & _ & O & I'). apply (oc_constraints _ _ _ _ _ O) in I'. destruct I' as (-> & _). apply N.
  - intros k x I. cbn in I. destruct I as [I|[I|[I|[]]]]; discriminate.
  - intros k x I. apply in_map_iff in I. destruct I as (y & X & _). discriminate.
Qed.
Lemma back_constraint c c' e x k : spelled h (c_expr c) e -> x = named_leaves (excludes_as_implies e) -> In (BConstraint k x) all_calls -> links_to m' x c' -> constraint_back h h' c c'.
Proof. intros Sp E I L. exists e. split; [exact Sp|]. unfold links_to in L. rewrite L. apply spelled_named; [exact (constraint_declared _ _ I)|exact E]. Qed.
Lemma back_nonboolean : Forall2 (constraint_back h h') (m_nonboolean m) (m_nonboolean m').
Proof.
  pose proof (ad_nonboolean _ _ _ _ A) as B. rewrite kinds_parts in B by reflexivity. rewrite (kinds_none _ xs), app_nil_r in B.
  2:{ intros k x I. destruct (forall2_right _ _ _ C5 _ I) as (c & _ & e & _ & X). injection X as -> ->. reflexivity. }
  assert (Sub : forall b, In b ns -> In b all_calls) by (intros b I; unfold all_calls; rewrite !in_app_iff; auto). pose proof C4 as Y. revert Y B Sub. generalize (m_nonboolean m), (m_nonboolean m'), ns.
  intros l l' ks X. revert l'. induction X as [|c b l ks (e & Sp & ->) X IH]; intros l' B Sub; cbn [constraints_of flat_map app fst snd] in B; [inversion B; constructor|]. inversion B as [|? c' ? l2 L B2]; subst. constructor.
  - apply (back_constraint c c' e _ KNonBoolean Sp eq_refl); [apply Sub; left; reflexivity|exact L].
  - apply IH; [exact B2|]. intros b I. apply Sub. right. exact I.
Qed.
Lemma back_mixed : Forall2 (fun x x' => constraint_back h h' (x_con x) (x_con x') /\ x_req x' = x_req x /\ x_kind x' = x_kind x) (m_mixed m) (m_mixed m').
Proof.
  pose proof (ad_mixed _ _ _ _ A) as B. rewrite kinds_parts in B by reflexivity. rewrite (kinds_none _ ns) in B.
  2:{ intros k x I. destruct (forall2_right _ _ _ C4 _ I) as (c & _ & e & _ & X). injection X as -> ->. reflexivity. }
  cbn [app] in B. assert (Sub : forall b, In b xs -> In b all_calls) by (intros b I; unfold all_calls; rewrite !in_app_iff; auto). pose proof C5 as Y. revert Y B Sub. generalize (m_mixed m), (m_mixed m'), xs.
  intros l l' ks X. revert l'. induction X as [|c b l ks (e & Sp & ->) X IH]; intros l' B Sub; cbn [constraints_of flat_map app fst snd] in B; [inversion B; constructor|]. inversion B as [|? c' ? l2 (L & Rq' & Kq') B2]; subst. cbn [fst snd] in *. constructor.
  - split; [|auto]. apply (back_constraint (x_con c) (x_con c') e _ (KMixed (x_req c) (x_kind c)) Sp eq_refl); [apply Sub; left; reflexivity|exact L].
  - apply IH; [exact B2|]. intros b I. apply Sub. right. exact I.
Qed.
Lemma quiet_calls : Forall quiet (List.concat ls ++ bs ++ ns ++ xs ++ groups_at ps).
Proof.
  apply Forall_forall. intros c I. rewrite !in_app_iff in I. destruct I as [I|[I|[I|[I|I]]]].
  - destruct (calls_from _ I) as (i & f & l & _ & _ & O & I'). pose proof (oc_inner _ _ _ _ _ O) as X. rewrite Forall_forall in X. specialize (X c I'). destruct c; try contradiction; exact Logic.I.
  - destruct (forall2_right _ _ _ C3 _ I) as (x & _ & e & _ & ->). exact Logic.I.
  - destruct (forall2_right _ _ _ C4 _ I) as (x & _ & e & _ & ->). exact Logic.I.
  - destruct (forall2_right _ _ _ C5 _ I) as (x & _ & e & _ & ->). exact Logic.I.
  - apply in_map_iff in I. destruct I as (y & <- & _). exact Logic.I.
Qed.
Lemma one_group p q q' c c' : In q (m_relationships m') -> In q' (m_relationships m') -> h_cells h' q = Some c -> h_cells h' q' = Some c' ->
  n_parent c = Some p -> n_parent c' = Some p -> q = q'.
Proof.
  intros Q Q' C C' P P'. assert (X : forall j x l l', Forall2 (fun q r => exists c, h_cells h' q = Some c /\ n_data c = NRelationship (snd r) /\ n_parent c = get_feature m' (fst r)) l l' ->
    nth_error l j = Some x -> exists r d, nth_error (map fst l') j = Some r /\ h_cells h' x = Some d /\ n_parent d = get_feature m' r).
  { intros j x l l' X. revert j. induction X as [|a b l l' (d & Cd & _ & Pd) X IH]; intros [|j] E; cbn in *; try discriminate; [injection E as <-; eauto 8|eauto]. }
  destruct (In_nth_error _ _ Q) as (j & Ej). destruct (In_nth_error _ _ Q') as (j' & Ej').
  destruct (X j q _ _ (ad_groups _ _ _ _ A) Ej) as (r & d & E1 & Cd & Pd). destruct (X j' q' _ _ (ad_groups _ _ _ _ A) Ej') as (r' & d' & E1' & Cd' & Pd').
  rewrite C in Cd. injection Cd as <-. rewrite C' in Cd'. injection Cd' as <-. rewrite P in Pd. rewrite P' in Pd'. pose proof (ad_tree _ _ _ _ A) as TS.
  assert (r = r') as <-.
  { symmetry in Pd, Pd'. unfold get_feature in Pd, Pd'. apply (find_name_in _ _ _ (ts_names _ _ TS)) in Pd, Pd'.
    destruct (ts_stored _ _ TS _ _ Pd) as (f & F & <-). destruct (ts_stored _ _ TS _ _ Pd') as (f' & F' & <-). congruence. }
  assert (j = j') as <-; [|congruence]. pose proof (de_groups _ _ D2) as ND. rewrite NoDup_nth_error in ND. apply ND; [apply nth_error_Some; congruence|congruence].
Qed.
Lemma all_back : model_below h m h' m'.
Proof.
  assert (Ecs : cs' = BName (m_name m) :: BPath (m_path m) :: BCommit (m_commit m) :: List.concat ls ++ bs ++ ns ++ xs ++ groups_at ps) by (unfold cs', all_calls, head_calls; cbn [app]; rewrite <- !app_assoc; reflexivity).
  constructor.
  - exact (ad_tree _ _ _ _ A).
  - exact (ad_represented _ _ _ _ A).
  - exact (ad_consistent _ _ _ _ A).
  - rewrite (ad_name _ _ _ _ A), Ecs. exact (quiet_name _ quiet_calls _).
  - rewrite (ad_path _ _ _ _ A), Ecs. exact (quiet_path _ quiet_calls _).
  - rewrite (ad_commit _ _ _ _ A), Ecs. exact (quiet_commit _ quiet_calls _).
  - assert (N : NoDup (map fst (m_features m))) by (apply (Permutation_NoDup (Permutation_map fst (Permutation_sym (rep_features _ _ _ R)))); exact (rep_names _ _ _ R)).
    assert (X : forall m0, NoDup (map fst (m_features m0)) -> forall s, In s (map fst (m_features m0)) <-> exists i, get_feature m0 s = Some i).
    { intros m0 N0 s. rewrite in_map_iff. split.
      - intros ((s' & i) & <- & I). exists i. unfold get_feature. apply find_name_in; auto.
      - intros (i & G). unfold get_feature in G. apply find_name_in in G; [|exact N0]. exists (s, i). auto. }
    apply NoDup_Permutation.
    + exact (ts_names _ _ (ad_tree _ _ _ _ A)).
    + constructor; [|exact N]. intros I. apply (X m N) in I. destruct I as (i & G). exact (not_new _ i G eq_refl).
    + intros s. rewrite (X m' (ts_names _ _ (ad_tree _ _ _ _ A))), <- both. cbn [In]. rewrite (X m N). unfold default_root. split; intros [Y|Y]; auto.
  - destruct (ad_root _ _ _ _ A) as (r & f & E & G & F & (K & _ & Out & Loc & Op)). exists r, f. auto 8.
  - exact back_features.
  - exact back_parents.
  - intros s p p' G G'. pose proof (back_apart s p p' G G') as Ap. destruct (Al s p' G') as (X1 & X2 & X3). rewrite X1. split; [exact Ap|]. split; [exact X2|]. intros i C. destruct (X3 i C) as (Y1 & Y2). rewrite <- Ap. auto.
  - intros r E. destruct (ad_root _ _ _ _ A) as (r0 & f & E0 & G & _). assert (r0 = r) as -> by congruence. cbn [fst] in G. destruct (Al rn r G) as (X1 & X2 & X3).
    assert (Nx : ~ exclusive_children h' m' r).
    { intros ((a & b & Ka & Kb & N) & _). apply N. assert (Y : forall a, child_in h' m' r a -> exists s, get_feature m s = Some (rid t) /\ get_feature m' s = Some a).
      { intros x ((s & Gx) & Ab). assert (P : parent_named h' m' s rn) by (exists x, r; auto). apply back_parents in P. destruct P as [(i & q & _ & Gq & _)|(_ & P & _)]; [destruct (not_new _ q Gq eq_refl)|]. rewrite (top_id h m t R) in P. eauto. }
      destruct (Y a Ka) as (s & Gs & Ga). destruct (Y b Kb) as (s' & Gs' & Gb). rewrite (same_name h m t R s s' _ Gs Gs') in Ga. congruence. }
    split; [|intros i C; apply (X3 i C); exact Nx]. intros [|] Y; [apply Nx, X1, Y|exact (X2 Y)].
  - exact one_group.
  - exact back_boolean.
  - exact back_nonboolean.
  - exact back_mixed.
Qed.
End Back.
End Described.
End Model.


Theorem written_and_read_below ord ord' sci step cwd h m t h0 : is_order ord -> is_order ord' -> sci_nonneg sci -> represents h m t -> enrolled h m -> all_resolved m -> writable_below h m -> heap_ok h0 ->
  exists doc h' m', write_xml ord h m = Some doc /\ valid doc = true /\ read_xml ord' sci step cwd h0 doc = SxDone (h', Some m') /\ model_below h m h' m' /\ enrolled h' m' /\ all_resolved m'.
Proof.
  intros Oo Oo' So R En Rs W K. destruct (document_ok ord Oo h m t R En Rs W sci step So cwd) as (doc & ids & ls & bs & ns & xs & E & V & Pi & Ni & Ca & C3 & C4 & C5 & St). fold (all_calls m ls bs ns xs) in St.
  destruct (declared h m t R W ids ls bs ns xs Pi Ni Ca C3 C4 C5) as (gs & Dc & G1 & G2 & Od). pose proof (plain_requests _ (stands_plain sci step cwd doc _ St)) as Rq.
  pose proof (described h m t R Rs W ids ls bs ns xs Pi Ca C3 C4 C5 gs Dc G1 G2 Od Rq) as De.
  destruct (document_means ord' sci step Oo' cwd h0 doc _ _ K V St De) as (h' & m' & ps & Er & K' & _ & _ & A & D2 & En' & Rs').
  destruct (alternatives_found ord' sci step Oo' cwd h0 doc _ _ K V St De) as (h2 & m2 & Er2 & Al). rewrite Er in Er2. injection Er2 as <- <-.
  exists doc, h', m'. split; [exact E|]. split; [exact V|]. split; [exact Er|]. split; [|auto].
  exact (all_back h m t R Rs W ids ls bs ns xs Pi Ca C3 C4 C5 gs G1 G2 h' m' ps A D2 Al).
Qed.
