(** Writing a model and reading the document back. *)
From Coq Require Import List ZArith NArith Arith Bool Ascii String Permutation Lia.
From Verif Require Import Text TextProofs NumSpec LlvmInt ConstraintModel ConstraintParserModel ConstraintSpec ConstraintRoundTrip SourceRangeModel FeatureTreeModel FeatureTreeSpec FeatureTransactionModel
  FeatureTransactionSpec FeatureEditSpec FeatureTreeProofs FeatureOrderProofs FeatureEditProofs FeatureTransactionFinal FeatureDataProofs FeatureCloneSpec FeatureCloneProofs FeatureMergeResult FeatureBuildSpec SxfmModel SxfmFinal XmlModel
  XmlWriterModel XmlSpec XmlDetectProofs XmlDetectFinal XmlReadProofs XmlFinal XmlTripSpec XmlTripText XmlTripWrite XmlTripOption XmlTripCalls XmlTripDoc.
Import ListNotations.
Local Open Scope string_scope.
Local Open Scope list_scope.
Local Open Scope nat_scope.

Lemma nodup_parts {A} (l k : list A) : NoDup (l ++ k) -> NoDup l /\ NoDup k /\ forall x, In x l -> ~ In x k.
Proof.
  induction l as [|a l IH]; cbn [app]; intros N; [split; [constructor|]; split; [exact N|intros x []]|]. apply NoDup_cons_iff in N. destruct N as (Na & N). destruct (IH N) as (A1 & A2 & A3). rewrite in_app_iff in Na.
  split; [constructor; tauto|]. split; [exact A2|]. intros x [<-|I]; [tauto|exact (A3 x I)].
Qed.

(** ** Declarations *)
Lemma declares_decls cs : forall d e, declares d (decls cs) e -> declares d cs e.
Proof.
  induction cs as [|c cs IH]; intros d e X; [exact X|]. unfold decls in X. cbn [flat_map] in X. fold (decls cs) in X.
  destruct c; cbn [app] in X; try (apply dec_other; [exact I|apply IH; exact X]).
  - inversion X; subst; [apply dec_feature; auto|contradiction].
  - inversion X; subst; [apply dec_same; auto|apply dec_root; auto|contradiction].
Qed.
Lemma declares_features gs : forall r fs cs d, NoDup (map f_name gs) -> (forall g, In g gs -> ~ taken (r, fs) (f_name g)) -> declares (r, fs ++ gs) cs d -> declares (r, fs) (map BFeature gs ++ cs) d.
Proof.
  induction gs as [|g gs IH]; intros r fs cs d N X D; [rewrite app_nil_r in D; exact D|]. cbn [map app] in *. apply NoDup_cons_iff in N. destruct N as (N1 & N2).
  apply dec_feature; [apply X; left; reflexivity|]. apply IH; [exact N2| |rewrite <- app_assoc; exact D].
  intros x Ix [T1|T1]; [apply (X x (or_intror Ix)); left; exact T1|]. cbn [snd fst] in *. rewrite map_app, in_app_iff in T1. destruct T1 as [T1|[T1|[]]]; [apply (X x (or_intror Ix)); right; exact T1|].
  apply N1. rewrite T1. apply in_map. exact Ix.
Qed.
Lemma last_edge_ok cs p s : (forall q, In (BEdge q s) cs -> q = p) -> forall d, (In (BEdge p s) cs \/ d = p) -> last_edge cs s d = p.
Proof.
  induction cs as [|c cs IH]; intros U d X; [destruct X as [[]|X]; exact X|].
  assert (U' : forall q, In (BEdge q s) cs -> q = p) by (intros q I; apply U; right; exact I).
  destruct c as [f|u|a b|k u|k e|u|u|u]; cbn [last_edge]; try (apply IH; [exact U'|]; destruct X as [[X|X]|X]; [discriminate|left; exact X|right; exact X]).
  apply IH; [exact U'|]. destruct (text_eqb b s) eqn:E.
  - apply text_eqb_eq in E. subst b. right. apply U. left. reflexivity.
  - apply text_eqb_neq in E. destruct X as [[X|X]|X]; [injection X as _ X; congruence|left; exact X|right; exact X].
Qed.
Definition quiet (c : bcall) : Prop := match c with BName _ | BCommit _ | BPath _ => False | _ => True end.
Lemma quiet_name cs : Forall quiet cs -> forall d, last_name cs d = d.
Proof. intros Q. induction Q as [|c cs X Q IH]; intros d; [reflexivity|]. unfold last_name in *. cbn [fold_left]. destruct c; try contradiction; apply IH. Qed.
Lemma quiet_path cs : Forall quiet cs -> forall d, last_path cs d = d.
Proof. intros Q. induction Q as [|c cs X Q IH]; intros d; [reflexivity|]. unfold last_path in *. cbn [fold_left]. destruct c; try contradiction; apply IH. Qed.
Lemma quiet_commit cs : Forall quiet cs -> forall d, last_commit cs d = d.
Proof. intros Q. induction Q as [|c cs X Q IH]; intros d; [reflexivity|]. unfold last_commit in *. cbn [fold_left]. destruct c; try contradiction; apply IH. Qed.

Lemma named_leaves_inj e e' : named_leaves e = named_leaves e' -> e = e'.
Proof.
  revert e'. induction e as [o l IHl r IHr|o x IH|n|f]; intros [o' l' r'|o' x'|n'|f'] E; cbn [named_leaves] in E; try discriminate; injection E; intros; subst; f_equal; auto.
  rewrite <- (U_T f), <- (U_T f'). congruence.
Qed.
Lemma forall2_compose {A B C} (P : A -> B -> Prop) (Q : B -> C -> Prop) a b c : Forall2 P a b -> Forall2 Q b c -> Forall2 (fun x z => exists y, P x y /\ Q y z) a c.
Proof. intros X. revert c. induction X as [|x y a b H X IH]; intros c Y; inversion Y; subst; constructor; eauto. Qed.

(** The expressions of the boolean constraints among the calls. *)
Definition booleans (x : ckind * cexpr cref) : list (cexpr cref) := match fst x with KBoolean => [snd x] | _ => [] end.

Section Model.
Variable ord : list nid -> list nid.
Hypothesis ord_ok : is_order ord.
Variables (h : heap) (m : fmodel) (t : tree).
Hypothesis R : represents h m t.
Hypothesis En : enrolled h m.
Hypothesis Rs : all_resolved m.
Hypothesis W : writable h m.

Variables (ids : list nid) (ls : list (list bcall)) (bs ns xs : list bcall).
Hypothesis Pi : Permutation ids (feature_ids t).
Hypothesis Ni : NoDup ids.
Hypothesis Ca : Forall2 (calls_at h m) ids ls.
Hypothesis C3 : Forall2 (plain_call_of h KBoolean) (others m) bs.
Hypothesis C4 : Forall2 (plain_call_of h KNonBoolean) (m_nonboolean m) ns.
Hypothesis C5 : Forall2 (mixed_call_of h) (m_mixed m) xs.
Definition all_calls : list bcall := head_calls m ++ List.concat ls ++ bs ++ ns ++ xs.

Lemma id_in i : In i ids <-> exists s, get_feature m s = Some i.
Proof. rewrite <- (in_features h m t R). split; apply Permutation_in; [exact Pi|apply Permutation_sym, Pi]. Qed.
Lemma calls_of i s : get_feature m s = Some i -> exists f l, feature_at h i = Some f /\ f_name f = s /\ In l ls /\ option_calls h m i f l.
Proof.
  intros G. destruct (forall2_left _ _ _ Ca i) as (l & L & f & F & O); [apply id_in; eauto|]. exists f, l. split; [exact F|]. split; [exact (name_unique h m t R i s f G F)|auto].
Qed.
Lemma calls_from c : In c (List.concat ls) -> exists i f l, get_feature m (f_name f) = Some i /\ feature_at h i = Some f /\ option_calls h m i f l /\ In c l.
Proof.
  intros I. apply in_concat in I. destruct I as (l & L & I). destruct (forall2_right _ _ _ Ca l L) as (i & Ii & f & F & O). exists i, f, l.
  apply id_in in Ii. destruct Ii as (s & G). rewrite (name_unique h m t R i s f G F). auto.
Qed.
Lemma edges p s : In (BEdge p s) all_calls <-> parent_named h m s p.
Proof.
  unfold all_calls. rewrite !in_app_iff. split.
  - intros [I|[I|[I|[I|I]]]].
    + cbn in I. destruct I as [I|[I|[I|[]]]]; discriminate.
    + destruct (calls_from _ I) as (i & f & l & _ & _ & O & I'). exact (oc_edges _ _ _ _ _ O p s I').
    + destruct (forall2_right _ _ _ C3 _ I) as (c & _ & e & _ & X). discriminate.
    + destruct (forall2_right _ _ _ C4 _ I) as (c & _ & e & _ & X). discriminate.
    + destruct (forall2_right _ _ _ C5 _ I) as (c & _ & e & _ & X). discriminate.
  - intros X. destruct X as (i & q & G & Gp & Ab). destruct (calls_of i s G) as (f & l & F & <- & L & O). right. left. apply in_concat. exists l. split; [exact L|]. apply (oc_parent _ _ _ _ _ O). exists i, q. auto.
Qed.
Definition from_option (k : ckind) (x : cexpr cref) : Prop :=
  k = KBoolean /\ exists i f o n, get_feature m (f_name f) = Some i /\ feature_at h i = Some f /\ (o = BImplies \/ o = BExcludes) /\ says h m o i n /\ x = CBin o (CFeat (Own (f_name f))) (CFeat (Own n)).
Lemma constraint_calls k x : In (BConstraint k x) all_calls <->
  from_option k x \/ (exists c e, k = KBoolean /\ In c (others m) /\ spelled h (c_expr c) e /\ x = named_leaves (excludes_as_implies e)) \/
  (exists c e, k = KNonBoolean /\ In c (m_nonboolean m) /\ spelled h (c_expr c) e /\ x = named_leaves (excludes_as_implies e)) \/
  (exists c e, k = KMixed (x_req c) (x_kind c) /\ In c (m_mixed m) /\ spelled h (c_expr (x_con c)) e /\ x = named_leaves (excludes_as_implies e)).
Proof.
  unfold all_calls. rewrite !in_app_iff. split.
  - intros [I|[I|[I|[I|I]]]].
    + cbn in I. destruct I as [I|[I|[I|[]]]]; discriminate.
    + left. destruct (calls_from _ I) as (i & f & l & G & F & O & I'). apply (oc_constraints _ _ _ _ _ O) in I'. destruct I' as (-> & o & n & Ho & Sy & ->). split; [reflexivity|]. exists i, f, o, n. auto.
    + right. left. destruct (forall2_right _ _ _ C3 _ I) as (c & Ic & e & Sp & X). injection X as -> ->. exists c, e. auto.
    + right. right. left. destruct (forall2_right _ _ _ C4 _ I) as (c & Ic & e & Sp & X). injection X as -> ->. exists c, e. auto.
    + right. right. right. destruct (forall2_right _ _ _ C5 _ I) as (c & Ic & e & Sp & X). injection X as -> ->. exists c, e. auto.
  - intros [X|[X|[X|X]]].
    + destruct X as (-> & i & f & o & n & G & F & Ho & Sy & ->). destruct (calls_of i _ G) as (f' & l & F' & _ & L & O). assert (f' = f) as -> by congruence. right. left. apply in_concat. exists l. split; [exact L|].
      apply (oc_constraints _ _ _ _ _ O). split; [reflexivity|]. exists o, n. auto.
    + destruct X as (c & e & -> & I & Sp & ->). destruct (forall2_left _ _ _ C3 c I) as (b & B & e' & Sp' & ->). rewrite (spelled_unique h _ _ _ Sp Sp'). auto.
    + destruct X as (c & e & -> & I & Sp & ->). destruct (forall2_left _ _ _ C4 c I) as (b & B & e' & Sp' & ->). rewrite (spelled_unique h _ _ _ Sp Sp'). auto.
    + destruct X as (c & e & -> & I & Sp & ->). destruct (forall2_left _ _ _ C5 c I) as (b & B & e' & Sp' & ->). rewrite (spelled_unique h _ _ _ Sp Sp'). auto 6.
Qed.
Lemma spelled_declared c e : In c (all_constraints m) -> spelled h (c_expr c) e -> forall s, In s (leaves e) -> exists i, get_feature m (T s) = Some i /\ In (Ref i) (leaves (c_expr c)).
Proof.
  intros I Sp s J. destruct (spelled_leaves h _ _ Sp s J) as (r & Ir & C). destruct (Rs c r I Ir) as (u & i & -> & G). cbn [called_in] in C. destruct C as (f & F & N). rewrite (name_unique h m t R i u f G F) in N. subst u. eauto.
Qed.

(** ** The declared features *)
Definition back_at (i : nid) (g : feature) : Prop := exists f, feature_at h i = Some f /\ back f g /\ f_kind g <> FRoot.
Lemma decls_features js : forall ks, Forall2 (calls_at h m) js ks -> ~ In (rid t) js -> exists gs, Forall2 back_at js gs /\ decls (List.concat ks) = map BFeature gs.
Proof.
  induction js as [|j js IH]; intros ks X N; inversion X as [|? k ? ks' (f & F & O) X']; subst; [exists []; split; [constructor|reflexivity]|].
  destruct (IH ks' X') as (gs & Fg & Eg); [intros J; apply N; right; exact J|]. destruct (oc_decl _ _ _ _ _ O) as (c & Ec & _ & Cf). destruct Cf as (g & -> & B & K).
  { rewrite (top_id h m t R). intros E. injection E as E. apply N. left. symmetry. exact E. }
  exists (g :: gs). split; [constructor; [exists f; auto|exact Fg]|]. cbn [List.concat map]. rewrite decls_app, Ec, Eg. reflexivity.
Qed.
Lemma constraint_decls {A} l (P : A -> bcall -> Prop) cs : Forall2 P l cs -> (forall c b, P c b -> exists k x, b = BConstraint k x) -> decls cs = [].
Proof. intros F X. induction F as [|c b l cs H F IH]; [reflexivity|]. destruct (X c b H) as (k & x & ->). exact IH. Qed.

Lemma declared : exists rn gs, get_feature m rn = Some (rid t) /\ declares (default_root, []) all_calls (rn, gs) /\ (forall g, In g gs -> exists i, i <> rid t /\ back_at i g /\ get_feature m (f_name g) = Some i) /\
  (forall i s, get_feature m s = Some i -> i <> rid t -> exists g, In g gs /\ back_at i g /\ f_name g = s) /\ NoDup (rn :: map f_name gs) /\ (forall c, In c all_calls -> ordinary c).
Proof.
  assert (It : In (rid t) ids).
  { apply id_in. apply (model_feature h m t R). pose proof (rep_top_feature h m t R) as X. destruct (rdata t) as [f|] eqn:D; [|discriminate]. exists t, f. split; [constructor|auto]. }
  destruct (in_split _ _ It) as (ia & ib & E). rewrite E in Ca. apply Forall2_app_inv_l in Ca. destruct Ca as (la & lx & Fa & Fx & El). inversion Fx as [|x0 lr y0 lb (f & F & O) Fb]; subst x0 y0 lx. clear Fx.
  rewrite E in Ni. pose proof (NoDup_remove_2 _ _ _ Ni) as Nr. pose proof (NoDup_remove_1 _ _ _ Ni) as Nab.
  destruct (decls_features ia la Fa) as (ga & Ba & Da); [intros X; apply Nr, in_app_iff; auto|]. destruct (decls_features ib lb Fb) as (gb & Bb & Db); [intros X; apply Nr, in_app_iff; auto|].
  destruct (oc_decl _ _ _ _ _ O) as (c & Ec & Cr & _). rewrite (Cr (top_id h m t R)) in Ec. set (rn := f_name f) in *.
  assert (Gr : get_feature m rn = Some (rid t)) by (destruct (proj1 (id_in (rid t)) It) as (s & G); unfold rn; rewrite (name_unique h m t R _ s f G F); exact G).
  assert (Dc : decls all_calls = map BFeature ga ++ BRoot rn :: map BFeature gb).
  { unfold all_calls. rewrite El, concat_app. cbn [List.concat]. rewrite !decls_app, Da, Db, Ec.
    assert (decls bs = []) as -> by (apply (constraint_decls _ _ _ C3); intros ? b (e & _ & ->); eauto). assert (decls ns = []) as -> by (apply (constraint_decls _ _ _ C4); intros ? b (e & _ & ->); eauto).
    assert (decls xs = []) as -> by (apply (constraint_decls _ _ _ C5); intros ? b (e & _ & ->); eauto). rewrite !app_nil_r. cbn [app]. reflexivity. }
  assert (Bk : Forall2 back_at (ia ++ ib) (ga ++ gb)) by (apply Forall2_app; assumption).
  assert (Gn : forall i g, In i ids -> back_at i g -> get_feature m (f_name g) = Some i).
  { intros i g Ii (f' & F' & (En' & _) & _). rewrite En'. apply id_in in Ii. destruct Ii as (s & G). rewrite (name_unique h m t R i s f' G F'). exact G. }
  assert (Sub : forall i, In i (ia ++ ib) -> In i ids /\ i <> rid t).
  { intros i I. split; [rewrite E; apply in_app_iff in I; apply in_app_iff; cbn [In]; tauto|]. intros ->. exact (Nr I). }
  assert (P1 : forall g, In g (ga ++ gb) -> exists i, i <> rid t /\ back_at i g /\ get_feature m (f_name g) = Some i).
  { intros g I. destruct (forall2_right _ _ _ Bk g I) as (i & Ii & B). destruct (Sub i Ii). exists i. auto. }
  assert (P2 : forall i s, get_feature m s = Some i -> i <> rid t -> exists g, In g (ga ++ gb) /\ back_at i g /\ f_name g = s).
  { intros i s G N. assert (Ii : In i (ia ++ ib)) by (assert (In i ids) as X by (apply id_in; eauto); rewrite E in X; apply in_app_iff in X; cbn [In] in X; apply in_app_iff; destruct X as [X|[X|X]]; auto; congruence).
    destruct (forall2_left _ _ _ Bk i Ii) as (g & Ig & B). exists g. split; [exact Ig|]. split; [exact B|]. destruct B as (f' & F' & (En' & _) & _). rewrite En'. exact (name_unique h m t R i s f' G F'). }
  assert (Nn : NoDup (map f_name (ga ++ gb))).
  { assert (X : forall js gs, Forall2 back_at js gs -> NoDup js -> (forall i, In i js -> In i ids) -> NoDup (map f_name gs)).
    { intros js gs X. induction X as [|i g js gs B X IH]; intros N S1; [constructor|]. apply NoDup_cons_iff in N. cbn [map]. constructor; [|apply IH; [apply N|intros x I; apply S1; right; exact I]].
      intros I. apply in_map_iff in I. destruct I as (g' & Eg & Ig). destruct (forall2_right _ _ _ X g' Ig) as (i' & Ii & B'). pose proof (Gn i g (S1 i (or_introl eq_refl)) B) as A1. pose proof (Gn i' g' (S1 i' (or_intror Ii)) B') as A2. rewrite Eg in A2. apply (proj1 N). congruence. }
    apply (X (ia ++ ib)); [exact Bk|exact Nab|]. intros i I. apply (Sub i I). }
  assert (Nrn : forall g, In g (ga ++ gb) -> f_name g <> rn).
  { intros g I X. destruct (P1 g I) as (i & N & _ & G). congruence. }
  assert (Nro : forall g, In g (ga ++ gb) -> f_name g <> T "root").
  { intros g I X. destruct (P1 g I) as (i & N & _ & G). pose proof (proj1 (wr_root h m W _ i G) (or_introl X)) as Y. rewrite (top_id h m t R) in Y. congruence. }
  exists rn, (ga ++ gb). split; [exact Gr|]. split; [|split; [exact P1|split; [exact P2|split]]].
  - apply declares_decls. rewrite Dc. rewrite map_app in Nn. destruct (nodup_parts _ _ Nn) as (N1 & N2 & N3). apply declares_features; [exact N1| |].
    { intros g I [X|[]]. apply (Nro g); [apply in_app_iff; auto|exact X]. }
    cbn [app]. assert (D2 : declares (rn, ga) (map BFeature gb) (rn, ga ++ gb)).
    { rewrite <- (app_nil_r (map BFeature gb)). apply declares_features; [exact N2| |constructor].
      intros g I [X|X]; [apply (Nrn g); [apply in_app_iff; auto|exact X]|]. exact (N3 _ X (in_map f_name _ _ I)). }
    destruct (text_eqb rn default_root) eqn:Er.
    + apply text_eqb_eq in Er. rewrite Er in *. apply dec_same. exact D2.
    + apply text_eqb_neq in Er. apply dec_root; [|exact D2]. intros [X|X]; [exact (Er X)|]. cbn [snd] in X. apply in_map_iff in X. destruct X as (g & Eg & Ig). apply (Nrn g); [apply in_app_iff; auto|exact Eg].
  - constructor; [|exact Nn]. intros X. apply in_map_iff in X. destruct X as (g & Eg & Ig). exact (Nrn g Ig Eg).
  - intros x I. destruct x; try exact Logic.I. assert (X : In (BFeature f0) (decls all_calls)) by (apply decls_in; auto). rewrite Dc in X. apply in_app_iff in X. cbn [In] in X.
    assert (Y : In f0 (ga ++ gb)) by (apply in_app_iff; destruct X as [X|[X|X]]; [left|discriminate|right]; apply in_map_iff in X; destruct X as (g & X & J); injection X as <-; exact J).
    destruct (P1 f0 Y) as (i & _ & (f' & _ & _ & K) & _). exact K.
Qed.

(** ** The calls describe the model *)
Section Described.
Variables (rn : text) (gs : list feature).
Hypothesis Gr : get_feature m rn = Some (rid t).
Hypothesis Dc : declares (default_root, []) all_calls (rn, gs).
Hypothesis G1 : forall g, In g gs -> exists i, i <> rid t /\ back_at i g /\ get_feature m (f_name g) = Some i.
Hypothesis G2 : forall i s, get_feature m s = Some i -> i <> rid t -> exists g, In g gs /\ back_at i g /\ f_name g = s.
Hypothesis Nn : NoDup (rn :: map f_name gs).
Hypothesis Od : forall c, In c all_calls -> ordinary c.
Hypothesis Rq : requests all_calls = [].

Lemma taken_iff s : taken (rn, gs) s <-> exists i, get_feature m s = Some i.
Proof.
  split.
  - intros [->|X]; [eauto|]. cbn [snd] in X. apply in_map_iff in X. destruct X as (g & <- & I). destruct (G1 g I) as (i & _ & _ & G). eauto.
  - intros (i & G). destruct (Nat.eq_dec i (rid t)) as [->|N].
    + left. cbn [fst]. destruct (id_data h m t R (rid t) (in_ids h m t R _ _ G)) as (f & F & _). rewrite <- (name_unique h m t R _ s f G F), <- (name_unique h m t R _ rn f Gr F). reflexivity.
    + destruct (G2 i s G N) as (g & I & _ & <-). right. apply in_map. exact I.
Qed.
Lemma last_parent s p d : parent_named h m s p -> last_edge all_calls s d = p.
Proof.
  intros P. apply last_edge_ok; [|left; apply edges; exact P]. intros q I. apply edges in I. exact (proj2 (parent_names h m t R s p P) q I).
Qed.
Lemma named_leaf e s : In (Own s) (leaves (named_leaves e)) -> exists u, s = T u /\ In u (leaves e).
Proof.
  rewrite named_leaves_cmap, leaves_cmap. intros I. apply in_map_iff in I. destruct I as (u & E & J). injection E as <-. eauto.
Qed.
Lemma constraint_declared k x : In (BConstraint k x) all_calls -> mentions_declared (rn, gs) x.
Proof.
  intros I. apply constraint_calls in I.
  assert (Sp : forall c e, In c (all_constraints m) -> spelled h (c_expr c) e -> mentions_declared (rn, gs) (named_leaves (excludes_as_implies e))).
  { intros c e Ic Sp r J. rewrite named_leaves_cmap, leaves_cmap in J. apply in_map_iff in J. destruct J as (u & <- & J). rewrite leaves_implies in J. destruct (spelled_declared c e Ic Sp u J) as (i & G & _). exists (T u). split; [reflexivity|]. apply taken_iff. eauto. }
  unfold all_constraints in Sp. destruct I as [I|[I|[I|I]]].
  - destruct I as (_ & i & f & o & n & G & F & _ & (j & Gj & _) & ->). intros r J. cbn in J. destruct J as [<-|[<-|[]]]; eexists; (split; [reflexivity|]); apply taken_iff; eauto.
  - destruct I as (c & e & _ & I & S1 & ->). apply (Sp c e); [|exact S1]. apply filter_In in I. apply in_app_iff. left. apply I.
  - destruct I as (c & e & _ & I & S1 & ->). apply (Sp c e); [|exact S1]. rewrite !in_app_iff. auto.
  - destruct I as (c & e & _ & I & S1 & ->). apply (Sp (x_con c) e); [|exact S1]. rewrite !in_app_iff. right. right. apply in_map. exact I.
Qed.
Lemma no_relationship k p : ~ In (BRelationship k p) all_calls.
Proof.
  intros I. assert (X : In (p, k) (requests all_calls)) by (unfold requests; apply in_flat_map; exists (BRelationship k p); split; [exact I|left; reflexivity]). rewrite Rq in X. destruct X.
Qed.
Lemma described : describes all_calls (rn, gs).
Proof.
  constructor.
  - exact Dc.
  - exact Od.
  - intros c I. destruct c as [f|u|p u|k p|k e|u|u|u]; try exact Logic.I. cbn [edge_ok]. apply edges in I. destruct (parent_names h m t R u p I) as (N & _). destruct I as (i & q & G & Gp & _). rewrite !taken_iff. eauto.
  - intros p s I E. cbn [fst] in E. subst s. apply edges in I. exact (no_parent_root h m t R rn p Gr I).
  - cbn [fst snd]. intros f I. destruct (G1 f I) as (i & _ & _ & G). revert f I G. assert (X : forall i, In i (feature_ids t) -> forall s, get_feature m s = Some i -> leads (fun s => last_edge all_calls s rn) rn s).
    { apply (climb h m t R (fun i => forall s, get_feature m s = Some i -> leads (fun s => last_edge all_calls s rn) rn s)).
      - intros s G. destruct (id_data h m t R (rid t) (in_ids h m t R _ _ G)) as (f & F & _). rewrite <- (name_unique h m t R _ s f G F), (name_unique h m t R _ rn f Gr F). constructor.
      - intros j p Ij Ip A IH s G. destruct (id_data h m t R p Ip) as (f & F & Gp). apply leads_up. rewrite (last_parent s (f_name f)) by (exists j, p; auto). apply IH. exact Gp. }
    intros f I G. exact (X i (in_ids h m t R _ _ G) _ G).
  - intros c I. destruct c as [f|u|p u|k p|k e|u|u|u]; try exact Logic.I; cbn [relation_ok]; [destruct (no_relationship k p I)|exact (constraint_declared k e I)].
  - rewrite Rq. constructor.
Qed.

(** ** The model read back *)
Section Back.
Variables (h' : heap) (m' : fmodel) (ps : list text).
Let cs' := all_calls ++ groups_at ps.
Hypothesis A : as_described cs' (rn, gs) h' m'.
Hypothesis D2 : describes cs' (rn, gs).
Hypothesis Al : forall s p, get_feature m' s = Some p ->
  (group_of h' m' p RAlternative <-> exclusive_children h' m' p) /\ ~ group_of h' m' p ROr /\
  forall i, child_in h' m' p i -> (exclusive_children h' m' p -> hangs h' i p (Some RAlternative)) /\ (~ exclusive_children h' m' p -> hangs h' i p None).

Lemma constraint_in k x : In (BConstraint k x) cs' <-> In (BConstraint k x) all_calls.
Proof. unfold cs'. rewrite in_app_iff. split; [|auto]. intros [I|I]; [exact I|]. apply in_map_iff in I. destruct I as (y & X & _). discriminate. Qed.
Lemma both s : (exists i, get_feature m s = Some i) <-> exists i, get_feature m' s = Some i.
Proof. rewrite <- taken_iff. apply (get_taken _ _ _ _ A). Qed.
Lemma back_features s i f : get_feature m s = Some i -> feature_at h i = Some f -> exists i' g, get_feature m' s = Some i' /\ feature_at h' i' = Some g /\ back f g.
Proof.
  intros G F. destruct (Nat.eq_dec i (rid t)) as [->|N].
  - assert (s = rn) as -> by (rewrite <- (name_unique h m t R _ s f G F), <- (name_unique h m t R _ rn f Gr F); reflexivity).
    destruct (ad_root _ _ _ _ A) as (r & g & _ & G' & F' & (K & Nm & Out & Loc & Op)). exists r, g. split; [exact G'|]. split; [exact F'|].
    assert (Kf : f_kind f = FRoot) by (apply (wr_kind h m W _ _ f G F), (top_id h m t R)). unfold back. rewrite Kf, K, Nm, Out, Loc, Op. cbn. rewrite (name_unique h m t R _ rn f G F). auto.
  - destruct (G2 i s G N) as (g & Ig & (f0 & F0 & B & _) & <-). assert (f0 = f) as -> by congruence. destruct (ad_data _ _ _ _ A g Ig) as (i' & g' & G' & F' & (K & Nm & Out & Loc & Op)). exists i', g'. split; [exact G'|]. split; [exact F'|].
    unfold back in *. rewrite K, Nm, Out, Loc, Op. exact B.
Qed.
Lemma back_parents s p : parent_named h' m' s p <-> parent_named h m s p.
Proof.
  split.
  - intros (i & q & G & Gp & Ab). assert (C : child_in h' m' q i) by (split; eauto). apply (child_below _ _ _ _ A p q i Gp) in C. destruct C as (f & (If & E) & Gf).
    pose proof (get_inj _ _ _ _ A _ _ _ G Gf) as ->. cbn [fst snd] in *. unfold cs' in E. rewrite last_edge_groups in E. destruct (G1 f If) as (j & N & _ & Gj). destruct (parent_exists h m t R _ j Gj N) as (p' & P).
    rewrite (last_parent _ p' _ P) in E. subst p'. exact P.
  - intros P. pose proof P as (i & q & G & Gp & Ab). assert (N : i <> rid t) by (intros ->; exact (no_parent_root h m t R s p G P)). destruct (G2 i s G N) as (f & If & _ & <-).
    destruct (proj1 (both (f_name f)) (ex_intro _ _ G)) as (i' & G'). destruct (proj1 (both p) (ex_intro _ _ Gp)) as (q' & Gq'). exists i', q'. split; [exact G'|]. split; [exact Gq'|].
    assert (C : child_in h' m' q' i'); [|apply C]. apply (child_below _ _ _ _ A p q' i' Gq'). exists f. split; [|exact G']. split; [exact If|]. cbn [fst]. unfold cs'. rewrite last_edge_groups. exact (last_parent _ p _ P).
Qed.

Lemma spelled_named x : mentions_declared (rn, gs) x -> forall e, spelled h' (cmap (pointing m') x) e <-> x = named_leaves e.
Proof.
  unfold mentions_declared. induction x as [o l IHl r IHr|o x IH|n|r]; intros M e; cbn [cmap leaves] in *.
  - assert (Ml := fun r I => M r (in_or_app _ _ _ (or_introl I))). assert (Mr := fun r I => M r (in_or_app _ _ _ (or_intror I))). split.
    + intros X. inversion X as [? ? ? l' r' Xl Xr| | |]; subst. apply IHl in Xl; [|exact Ml]. apply IHr in Xr; [|exact Mr]. subst. reflexivity.
    + destruct e; cbn [named_leaves]; try discriminate. intros X. injection X as -> -> ->. constructor; [apply IHl|apply IHr]; auto.
  - split.
    + intros X. inversion X; subst. cbn [named_leaves]. f_equal. apply IH; auto.
    + destruct e; cbn [named_leaves]; try discriminate. intros X. injection X as -> ->. constructor. apply IH; auto.
  - split; [intros X; inversion X; reflexivity|]. destruct e; cbn [named_leaves]; try discriminate. intros X. injection X as ->. constructor.
  - destruct (M r (or_introl eq_refl)) as (s & -> & Ts). apply (get_taken _ _ _ _ A) in Ts. destruct Ts as (i & G). cbn [pointing]. rewrite G. destruct (get_data _ _ _ _ A s i G) as (f & F & N). split.
    + intros X. inversion X as [| | |? u C]; subst. cbn [called_in] in C. destruct C as (f' & F' & N'). assert (f' = f) as -> by congruence. cbn [named_leaves]. congruence.
    + destruct e; cbn [named_leaves]; try discriminate. intros X. injection X as ->. constructor. exists f. auto.
Qed.
Lemma says_pair o i f n : get_feature m (f_name f) = Some i -> feature_at h i = Some f -> (o = BImplies \/ o = BExcludes) -> says h m o i n -> boolean_back h m (CBin o (CFeat (U (f_name f))) (CFeat (U n))).
Proof.
  intros G F Ho (j & Gj & [(c & Ic & Ec)|(-> & N & Tg)]).
  - left. split; [eexists o, _, _; auto|]. exists c. split; [exact Ic|]. rewrite Ec. constructor; constructor; cbn [called_in].
    + exists f. rewrite T_U. auto.
    + destruct (id_data h m t R j (in_ids h m t R _ _ Gj)) as (g & Fg & _). exists g. rewrite T_U. split; [exact Fg|]. exact (name_unique h m t R j n g Gj Fg).
  - right. left. exists (U (f_name f)), (U n), i, j. rewrite !T_U. auto 6.
Qed.
Lemma spelled_pair c e : spelled h c e -> (pair c <-> pair e).
Proof.
  intros X. split; intros (o & a & b & Ho & E); subst; inversion X as [? ? ? l' r' Xl Xr| | |]; subst; inversion Xl; subst; inversion Xr; subst; eexists _, _, _; split; eauto.
Qed.
Lemma pair_option o a b i j c : In c (all_constraints m) -> spelled h (c_expr c) (CBin o (CFeat a) (CFeat b)) -> get_feature m (T a) = Some i -> get_feature m (T b) = Some j -> states_pair o m i j.
Proof.
  intros I Sp Ga Gb. exists c. split; [exact I|]. assert (Rf : forall r s k, In r (leaves (c_expr c)) -> called_in h r s -> get_feature m (T s) = Some k -> r = Ref k).
  { intros r s k J C G. destruct (Rs c r I J) as (u & z & -> & Gz). cbn [called_in] in C. destruct C as (f & F & N). rewrite (name_unique h m t R z u f Gz F) in N. subst u. congruence. }
  inversion Sp as [? l r ? ? Xl Xr Ec| | |]; subst. inversion Xl as [| | |ra ? Ca' Ea]; subst. inversion Xr as [| | |rb ? Cb Eb]; subst.
  rewrite <- Ec in Rf. cbn [leaves app] in Rf. rewrite (Rf ra a i), (Rf rb b j); cbn [In]; auto.
Qed.
Lemma boolean_calls e : In (BConstraint KBoolean (named_leaves e)) all_calls <-> boolean_back h m e.
Proof.
  rewrite constraint_calls. split.
  - intros [I|[I|[I|I]]].
    + destruct I as (_ & i & f & o & n & G & F & Ho & Sy & E). destruct e as [o' l r| | |]; try discriminate. destruct l as [| | |a]; try discriminate; destruct r as [| | |b]; try discriminate. cbn [named_leaves] in E. injection E as -> Ea Eb.
      rewrite <- (U_T a), Ea, <- (U_T b), Eb. exact (says_pair o i f n G F Ho Sy).
    + destruct I as (c & e0 & _ & I & Sp & E). apply named_leaves_inj in E. subst e. right. right. exists e0. split; [reflexivity|]. apply filter_In in I. destruct I as (I & Np). split; [|exists c; auto].
      intros P. apply (spelled_pair _ _ Sp) in P. apply is_pair_iff in P. rewrite P in Np. discriminate.
    + destruct I as (c & e0 & X & _). discriminate.
    + destruct I as (c & e0 & X & _). discriminate.
  - intros [(P & c & I & Sp)|[(a & b & i & j & -> & Ga & Gb & N & Tg)|(e0 & -> & Np & c & I & Sp)]].
    + left. split; [reflexivity|]. destruct P as (o & a & b & Ho & ->). destruct (spelled_declared c _ I Sp a (or_introl eq_refl)) as (i & Ga & _). destruct (spelled_declared c _ I Sp b (or_intror (or_introl eq_refl))) as (j & Gb & _).
      destruct (id_data h m t R i (in_ids h m t R _ _ Ga)) as (f & F & G). pose proof (name_unique h m t R _ _ f Ga F) as Nf. exists i, f, o, (T b). split; [exact G|]. split; [exact F|]. split; [exact Ho|]. split.
      * exists j. split; [exact Gb|]. left. exact (pair_option o a b i j c I Sp Ga Gb).
      * cbn [named_leaves]. rewrite Nf. reflexivity.
    + left. split; [reflexivity|]. destruct (id_data h m t R i (in_ids h m t R _ _ Ga)) as (f & F & G). pose proof (name_unique h m t R _ _ f Ga F) as Nf. exists i, f, BExcludes, (T b). split; [exact G|]. split; [exact F|]. split; [auto|]. split.
      * exists j. split; [exact Gb|]. right. auto.
      * cbn [named_leaves]. rewrite Nf. reflexivity.
    + right. left. exists c, e0. split; [reflexivity|]. split; [|auto]. apply filter_In. split; [exact I|]. destruct (is_pair (c_expr c)) eqn:P; [|reflexivity]. apply is_pair_iff, (spelled_pair _ _ Sp) in P. contradiction.
Qed.
Lemma back_boolean e : stated h' (m_boolean m') e <-> boolean_back h m e.
Proof.
  rewrite <- boolean_calls. pose proof (ad_boolean _ _ _ _ A) as B.
  assert (L : forall x, In x (flat_map (fun x => match fst x with KBoolean => [snd x] | _ => [] end) (constraints_of cs')) <-> In (BConstraint KBoolean x) all_calls).
  { intros x. rewrite <- constraint_in, <- (constraints_of_in cs'). rewrite in_flat_map. split.
    - intros ((k & y) & I & J). cbn [fst snd] in J. destruct k; try destruct J. subst y. exact I. contradiction.
    - intros I. exists (KBoolean, x). split; [exact I|left; reflexivity]. }
  split.
  - intros (c & I & Sp). destruct (forall2_right _ _ _ B c I) as (x & Ix & Lk). apply L in Ix. unfold links_to in Lk. rewrite Lk in Sp. apply spelled_named in Sp; [|exact (constraint_declared _ _ Ix)]. subst x. exact Ix.
  - intros I. destruct (forall2_left _ _ _ B (named_leaves e)) as (c & Ic & Lk); [apply L; exact I|]. exists c. split; [exact Ic|]. unfold links_to in Lk. rewrite Lk. apply spelled_named; [exact (constraint_declared _ _ I)|reflexivity].
Qed.
Lemma back_exclusion x y a b a' b' : get_feature m x = Some a -> get_feature m y = Some b -> get_feature m' x = Some a' -> get_feature m' y = Some b' -> b <> a -> (states_exclusion m' a' b' <-> together h a b \/ states_exclusion m a b).
Proof.
  intros Ga Gb Ga' Gb' N. rewrite (exclusion_described _ _ _ _ D2 A x y a' b' Ga' Gb'). unfold excluding. split.
  - intros (k & I). apply constraint_in, constraint_calls in I. 
    assert (No : forall e, CBin BExcludes (CFeat (Own x)) (CFeat (Own y)) <> named_leaves (excludes_as_implies e)) by (intros [[] l r| | |]; discriminate).
    destruct I as [I|[I|[I|I]]]; [|destruct I as (c & e & _ & _ & _ & X); destruct (No e X)..].
    destruct I as (_ & i & f & o & n & G & F & Ho & (j & Gj & Sy) & E). injection E as <- -> <-. assert (i = a) as -> by congruence. assert (j = b) as -> by congruence. destruct Sy as [Sy|(_ & _ & Sy)]; [right; exact Sy|left; exact Sy].
  - intros Sy. exists KBoolean. apply constraint_in, constraint_calls. left. split; [reflexivity|]. destruct (id_data h m t R a (in_ids h m t R _ _ Ga)) as (f & F & G). pose proof (name_unique h m t R _ _ f Ga F) as Nf. exists a, f, BExcludes, y.
    rewrite Nf. split; [exact Ga|]. split; [exact F|]. split; [auto|]. split; [|reflexivity]. exists b. split; [exact Gb|]. destruct Sy as [Sy|Sy]; [right; auto|left; exact Sy].
Qed.
Lemma child_name h0 m0 p i s : (forall s i, get_feature m0 s = Some i -> exists f, feature_at h0 i = Some f /\ f_name f = s) -> get_feature m0 s = Some p -> (child_in h0 m0 p i <-> exists x, get_feature m0 x = Some i /\ parent_named h0 m0 x s).
Proof.
  intros Dt G. split.
  - intros ((x & Gx) & Ab). exists x. split; [exact Gx|]. exists i, p. auto.
  - intros (x & Gx & j & q & Gj & Gq & Ab). assert (j = i) as -> by congruence. assert (q = p) as -> by congruence. split; eauto.
Qed.
Lemma same_name s s' i : get_feature m s = Some i -> get_feature m s' = Some i -> s = s'.
Proof. intros G G'. destruct (id_data h m t R i (in_ids h m t R _ _ G)) as (f & F & _). rewrite <- (name_unique h m t R _ s f G F). exact (name_unique h m t R _ s' f G' F). Qed.
Lemma names_data s i : get_feature m s = Some i -> exists f, feature_at h i = Some f /\ f_name f = s.
Proof. intros G. destruct (id_data h m t R i (in_ids h m t R _ _ G)) as (f & F & _). exists f. split; [exact F|]. exact (name_unique h m t R _ s f G F). Qed.
Lemma back_apart s p p' : get_feature m s = Some p -> get_feature m' s = Some p' -> (exclusive_children h' m' p' <-> apart h m p).
Proof.
  intros G G'. assert (Ch := fun i => child_name h m p i s names_data G). assert (Ch' := fun i => child_name h' m' p' i s (get_data _ _ _ _ A) G').
  assert (To : forall i, child_in h m p i -> exists x i', get_feature m x = Some i /\ get_feature m' x = Some i' /\ child_in h' m' p' i').
  { intros i C. apply Ch in C. destruct C as (x & Gx & P). destruct (proj1 (both x) (ex_intro _ _ Gx)) as (i' & Gx'). exists x, i'. split; [exact Gx|]. split; [exact Gx'|]. apply Ch'. exists x. split; [exact Gx'|]. apply back_parents. exact P. }
  assert (Fro : forall i', child_in h' m' p' i' -> exists x i, get_feature m x = Some i /\ get_feature m' x = Some i' /\ child_in h m p i).
  { intros i' C. apply Ch' in C. destruct C as (x & Gx & P). destruct (proj2 (both x) (ex_intro _ _ Gx)) as (i & Gx'). exists x, i. split; [exact Gx'|]. split; [exact Gx|]. apply Ch. exists x. split; [exact Gx'|]. apply back_parents. exact P. }
  assert (Opt : forall x i i', get_feature m x = Some i -> get_feature m' x = Some i' -> child_in h m p i -> ((exists f, feature_at h' i' = Some f /\ f_optional f = false) <-> exists f, feature_at h i = Some f /\ f_optional f = false)).
  { intros x i i' Gx Gx' C. destruct (names_data x i Gx) as (f & F & _). destruct (back_features x i f Gx F) as (j & g & Gj & Fg & (_ & _ & _ & B)). assert (j = i') as -> by congruence.
    assert (Nk : f_kind f <> FRoot). { intros K. apply (wr_kind h m W _ _ f Gx F) in K. rewrite (top_id h m t R) in K. injection K as K. apply (no_parent_top h m t R p). rewrite K. apply C. }
    assert (O : f_optional g = f_optional f) by (destruct (f_kind f); try apply B; contradiction).
    split; intros (f' & F' & X); [exists f|exists g]; (split; [assumption|]); congruence. }
  split.
  - intros ((a' & b' & Ka & Kb & N) & X). split.
    + destruct (Fro a' Ka) as (x & a & Ga & Ga' & Ca'). destruct (Fro b' Kb) as (y & b & Gb & Gb' & Cb'). exists a, b. split; [exact Ca'|]. split; [exact Cb'|]. intros ->. rewrite (same_name x y b Ga Gb) in Ga'. congruence.
    + intros a Ka0. destruct (To a Ka0) as (x & a2 & Ga & Ga' & Ca'). destruct (X a2 Ca') as (O & E). split; [apply (Opt x a a2); auto|]. intros b Kb0 Nb. destruct (To b Kb0) as (y & b2 & Gb & Gb' & Cb').
      apply (back_exclusion x y a b a2 b2); auto. apply E; [exact Cb'|]. intros ->. apply Nb. rewrite (get_inj _ _ _ _ A x y a2 Ga' Gb') in Ga. congruence.
  - intros ((a & b & Ka & Kb & N) & X). split.
    + destruct (To a Ka) as (x & a' & Ga & Ga' & Ca'). destruct (To b Kb) as (y & b' & Gb & Gb' & Cb'). exists a', b'. split; [exact Ca'|]. split; [exact Cb'|]. intros ->. rewrite (get_inj _ _ _ _ A x y b' Ga' Gb') in Ga. congruence.
    + intros a' Ka0. destruct (Fro a' Ka0) as (x & a2 & Ga & Ga' & Ca'). destruct (X a2 Ca') as (O & E). split; [apply (Opt x a2 a'); auto|]. intros b' Kb0 Nb. destruct (Fro b' Kb0) as (y & b2 & Gb & Gb' & Cb').
      assert (b2 <> a2) by (intros ->; apply Nb; rewrite (same_name x y a2 Ga Gb) in Ga'; congruence). apply (back_exclusion x y a2 b2 a' b'); auto.
Qed.

Lemma kinds_app {B} (g : ckind * cexpr cref -> list B) a b : flat_map g (constraints_of (a ++ b)) = flat_map g (constraints_of a) ++ flat_map g (constraints_of b).
Proof. unfold constraints_of. rewrite !flat_map_app. reflexivity. Qed.
Lemma kinds_none {B} (g : ckind * cexpr cref -> list B) cs : (forall k x, In (BConstraint k x) cs -> g (k, x) = []) -> flat_map g (constraints_of cs) = [].
Proof.
  induction cs as [|c cs IH]; intros X; [reflexivity|]. change (c :: cs) with ([c] ++ cs). rewrite kinds_app, IH by (intros k x I; apply X; right; exact I). rewrite app_nil_r.
  destruct c as [f|u|p u|k p|k e|u|u|u]; try reflexivity. cbn. rewrite app_nil_r. apply X. left. reflexivity.
Qed.
Lemma kinds_parts {B} (g : ckind * cexpr cref -> list B) : (forall x, g (KBoolean, x) = []) ->
  flat_map g (constraints_of cs') = flat_map g (constraints_of ns) ++ flat_map g (constraints_of xs).
Proof.
  intros N. unfold cs', all_calls. rewrite !kinds_app. rewrite (kinds_none g (groups_at ps)), (kinds_none g (head_calls m)), (kinds_none g (List.concat ls)), (kinds_none g bs); [rewrite app_nil_r; reflexivity| | | |].
  - intros k x I. destruct (forall2_right _ _ _ C3 _ I) as (c & _ & e & _ & X). injection X as -> ->. apply N.
  - intros k x I. destruct (calls_from _ I) as (i & f & l & _ & _ & O & I'). apply (oc_constraints _ _ _ _ _ O) in I'. destruct I' as (-> & _). apply N.
  - intros k x I. cbn in I. destruct I as [I|[I|[I|[]]]]; discriminate.
  - intros k x I. apply in_map_iff in I. destruct I as (y & X & _). discriminate.
Qed.
Lemma back_constraint c c' e x k : spelled h (c_expr c) e -> x = named_leaves (excludes_as_implies e) -> In (BConstraint k x) all_calls -> links_to m' x c' -> constraint_back h h' c c'.
Proof. intros Sp E I L. exists e. split; [exact Sp|]. unfold links_to in L. rewrite L. apply spelled_named; [exact (constraint_declared _ _ I)|exact E]. Qed.
Lemma bs_list js ks : Forall2 (plain_call_of h KBoolean) js ks -> exists xs, flat_map booleans (constraints_of ks) = xs /\ Forall2 (fun c x => exists e, spelled h (c_expr c) e /\ x = named_leaves (excludes_as_implies e) /\ In (BConstraint KBoolean x) ks) js xs.
Proof.
  intros X. exists (flat_map booleans (constraints_of ks)). split; [reflexivity|]. induction X as [|c b js ks (e & Sp & ->) X IH]; [constructor|]. cbn. constructor.
  - exists e. split; [exact Sp|]. split; [reflexivity|]. left. reflexivity.
  - eapply FeatureMergeResult.forall2_impl; [exact IH|]. intros c' x (e' & S' & E' & I'). exists e'. split; [exact S'|]. split; [exact E'|]. right. exact I'.
Qed.
Lemma back_list : exists ys zs, m_boolean m' = ys ++ zs /\ Forall2 (fun x c => forall e, spelled h' (c_expr c) e <-> x = named_leaves e) (flat_map booleans (constraints_of (List.concat ls))) ys /\
  Forall2 (constraint_back h h') (others m) zs.
Proof.
  pose proof (ad_boolean _ _ _ _ A) as B. change (fun x : ckind * cexpr cref => match fst x with KBoolean => [snd x] | _ => [] end) with booleans in B.
  unfold cs', all_calls in B. rewrite !kinds_app in B. rewrite (kinds_none booleans (groups_at ps)), (kinds_none booleans (head_calls m)), (kinds_none booleans ns), (kinds_none booleans xs) in B.
  2: { intros k x I. destruct (forall2_right _ _ _ C5 _ I) as (c & _ & e & _ & X). injection X as -> ->. reflexivity. }
  2: { intros k x I. destruct (forall2_right _ _ _ C4 _ I) as (c & _ & e & _ & X). injection X as -> ->. reflexivity. }
  2: { intros k x I. cbn in I. destruct I as [I|[I|[I|[]]]]; discriminate. }
  2: { intros k x I. apply in_map_iff in I. destruct I as (y & X & _). discriminate. }
  rewrite !app_nil_r in B. cbn [app] in B. apply Forall2_app_inv_l in B. destruct B as (ys & zs & B1 & B2 & E). exists ys, zs. split; [exact E|]. split.
  - assert (Q : forall x, In x (flat_map booleans (constraints_of (List.concat ls))) -> In (BConstraint KBoolean x) all_calls).
    { intros x I. apply in_flat_map in I. destruct I as ((k & y) & I & J). destruct k; cbn in J; try contradiction. destruct J as [->|[]]. unfold all_calls. rewrite !in_app_iff. right. left. apply constraints_of_in. exact I. }
    clear B2 E. revert Q. induction B1 as [|x c l k L B1 IH]; intros Q; [constructor|constructor; [|apply IH; intros y I; apply Q; right; exact I]].
    intros e. unfold links_to in L. rewrite L. apply spelled_named. exact (constraint_declared _ _ (Q x (or_introl eq_refl))).
  - destruct (bs_list _ _ C3) as (xs0 & E0 & F0). rewrite E0 in B2. assert (Q : forall x, In (BConstraint KBoolean x) bs -> In (BConstraint KBoolean x) all_calls) by (intros x I; unfold all_calls; rewrite !in_app_iff; auto).
    clear E E0. revert zs B2. generalize dependent (others m). intros js _ F0. induction F0 as [|c x js l (e & Sp & Ex & I) F0 IH]; intros zs B2; inversion B2 as [|? z ? zs' L B2']; subst; [constructor|constructor; [|apply IH; exact B2']].
    exact (back_constraint c z e _ KBoolean Sp eq_refl (Q _ I) L).
Qed.
Lemma back_nonboolean : Forall2 (constraint_back h h') (m_nonboolean m) (m_nonboolean m').
Proof.
  pose proof (ad_nonboolean _ _ _ _ A) as B. rewrite kinds_parts in B by reflexivity. rewrite (kinds_none _ xs), app_nil_r in B.
  2:{ intros k x I. destruct (forall2_right _ _ _ C5 _ I) as (c & _ & e & _ & X). injection X as -> ->. reflexivity. }
  assert (Sub : forall b, In b ns -> In b all_calls) by (intros b I; unfold all_calls; rewrite !in_app_iff; auto). pose proof C4 as Y. revert Y B Sub. generalize (m_nonboolean m), (m_nonboolean m'), ns.
  intros l l' ks X. revert l'. induction X as [|c b l ks (e & Sp & ->) X IH]; intros l' B Sub; cbn [constraints_of flat_map app fst snd] in B; [inversion B; constructor|]. inversion B as [|? c' ? l2 L B2]; subst. constructor.
  - apply (back_constraint c c' e _ KNonBoolean Sp eq_refl); [apply Sub; left; reflexivity|exact L].
  - apply IH; [exact B2|]. intros b I. apply Sub. right. exact I.
Qed.
Lemma back_mixed : Forall2 (fun x x' => constraint_back h h' (x_con x) (x_con x') /\ x_req x' = x_req x /\ x_kind x' = x_kind x) (m_mixed m) (m_mixed m').
Proof.
  pose proof (ad_mixed _ _ _ _ A) as B. rewrite kinds_parts in B by reflexivity. rewrite (kinds_none _ ns) in B.
  2:{ intros k x I. destruct (forall2_right _ _ _ C4 _ I) as (c & _ & e & _ & X). injection X as -> ->. reflexivity. }
  cbn [app] in B. assert (Sub : forall b, In b xs -> In b all_calls) by (intros b I; unfold all_calls; rewrite !in_app_iff; auto). pose proof C5 as Y. revert Y B Sub. generalize (m_mixed m), (m_mixed m'), xs.
  intros l l' ks X. revert l'. induction X as [|c b l ks (e & Sp & ->) X IH]; intros l' B Sub; cbn [constraints_of flat_map app fst snd] in B; [inversion B; constructor|]. inversion B as [|? c' ? l2 (L & Rq' & Kq') B2]; subst. cbn [fst snd] in *. constructor.
  - split; [|auto]. apply (back_constraint (x_con c) (x_con c') e _ (KMixed (x_req c) (x_kind c)) Sp eq_refl); [apply Sub; left; reflexivity|exact L].
  - apply IH; [exact B2|]. intros b I. apply Sub. right. exact I.
Qed.
Lemma quiet_calls : Forall quiet (List.concat ls ++ bs ++ ns ++ xs ++ groups_at ps).
Proof.
  apply Forall_forall. intros c I. rewrite !in_app_iff in I. destruct I as [I|[I|[I|[I|I]]]].
  - destruct (calls_from _ I) as (i & f & l & _ & _ & O & I'). pose proof (oc_inner _ _ _ _ _ O) as X. rewrite Forall_forall in X. specialize (X c I'). destruct c; try contradiction; exact Logic.I.
  - destruct (forall2_right _ _ _ C3 _ I) as (x & _ & e & _ & ->). exact Logic.I.
  - destruct (forall2_right _ _ _ C4 _ I) as (x & _ & e & _ & ->). exact Logic.I.
  - destruct (forall2_right _ _ _ C5 _ I) as (x & _ & e & _ & ->). exact Logic.I.
  - apply in_map_iff in I. destruct I as (y & <- & _). exact Logic.I.
Qed.
Lemma one_group p q q' c c' : In q (m_relationships m') -> In q' (m_relationships m') -> h_cells h' q = Some c -> h_cells h' q' = Some c' ->
  n_parent c = Some p -> n_parent c' = Some p -> q = q'.
Proof.
  intros Q Q' C C' P P'. assert (X : forall j x l l', Forall2 (fun q r => exists c, h_cells h' q = Some c /\ n_data c = NRelationship (snd r) /\ n_parent c = get_feature m' (fst r)) l l' ->
    nth_error l j = Some x -> exists r d, nth_error (map fst l') j = Some r /\ h_cells h' x = Some d /\ n_parent d = get_feature m' r).
  { intros j x l l' X. revert j. induction X as [|a b l l' (d & Cd & _ & Pd) X IH]; intros [|j] E; cbn in *; try discriminate; [injection E as <-; eauto 8|eauto]. }
  destruct (In_nth_error _ _ Q) as (j & Ej). destruct (In_nth_error _ _ Q') as (j' & Ej').
  destruct (X j q _ _ (ad_groups _ _ _ _ A) Ej) as (r & d & E1 & Cd & Pd). destruct (X j' q' _ _ (ad_groups _ _ _ _ A) Ej') as (r' & d' & E1' & Cd' & Pd').
  rewrite C in Cd. injection Cd as <-. rewrite C' in Cd'. injection Cd' as <-. rewrite P in Pd. rewrite P' in Pd'. pose proof (ad_tree _ _ _ _ A) as TS.
  assert (r = r') as <-.
  { symmetry in Pd, Pd'. unfold get_feature in Pd, Pd'. apply (find_name_in _ _ _ (ts_names _ _ TS)) in Pd, Pd'.
    destruct (ts_stored _ _ TS _ _ Pd) as (f & F & <-). destruct (ts_stored _ _ TS _ _ Pd') as (f' & F' & <-). congruence. }
  assert (j = j') as <-; [|congruence]. pose proof (de_groups _ _ D2) as ND. rewrite NoDup_nth_error in ND. apply ND; [apply nth_error_Some; congruence|congruence].
Qed.
Lemma all_back : model_back h m h' m'.
Proof.
  assert (Ecs : cs' = BName (m_name m) :: BPath (m_path m) :: BCommit (m_commit m) :: List.concat ls ++ bs ++ ns ++ xs ++ groups_at ps) by (unfold cs', all_calls, head_calls; cbn [app]; rewrite <- !app_assoc; reflexivity).
  constructor.
  - exact (ad_tree _ _ _ _ A).
  - exact (ad_represented _ _ _ _ A).
  - exact (ad_consistent _ _ _ _ A).
  - rewrite (ad_name _ _ _ _ A), Ecs. exact (quiet_name _ quiet_calls _).
  - rewrite (ad_path _ _ _ _ A), Ecs. exact (quiet_path _ quiet_calls _).
  - rewrite (ad_commit _ _ _ _ A), Ecs. exact (quiet_commit _ quiet_calls _).
  - apply NoDup_Permutation.
    + exact (ts_names _ _ (ad_tree _ _ _ _ A)).
    + apply (Permutation_NoDup (Permutation_map fst (Permutation_sym (rep_features _ _ _ R)))). exact (rep_names _ _ _ R).
    + assert (N : NoDup (map fst (m_features m))) by (apply (Permutation_NoDup (Permutation_map fst (Permutation_sym (rep_features _ _ _ R)))); exact (rep_names _ _ _ R)).
      assert (X : forall m0, NoDup (map fst (m_features m0)) -> forall s, In s (map fst (m_features m0)) <-> exists i, get_feature m0 s = Some i).
      { intros m0 N0 s. rewrite in_map_iff. split.
        - intros ((s' & i) & <- & I). exists i. unfold get_feature. apply find_name_in; auto.
        - intros (i & G). unfold get_feature in G. apply find_name_in in G; [|exact N0]. exists (s, i). auto. }
      intros s. rewrite (X m' (ts_names _ _ (ad_tree _ _ _ _ A))), (X m N). symmetry. apply both.
  - exists rn. rewrite (top_id h m t R). split; [exact Gr|]. destruct (ad_root _ _ _ _ A) as (r & f & E & G & _). rewrite E. split; [exact G|discriminate].
  - exact back_features.
  - exact back_parents.
  - intros s p p' G G'. pose proof (back_apart s p p' G G') as Ap. destruct (Al s p' G') as (X1 & X2 & X3). rewrite X1. split; [exact Ap|]. split; [exact X2|]. intros i C. destruct (X3 i C) as (Y1 & Y2). rewrite <- Ap. auto.
  - exact one_group.
  - exact back_boolean.
  - exact back_nonboolean.
  - exact back_mixed.
Qed.
End Back.
End Described.
End Model.

Theorem written_and_read_list ord ord' sci step cwd h m t h0 : is_order ord -> is_order ord' -> sci_nonneg sci -> represents h m t -> enrolled h m -> all_resolved m -> writable h m -> heap_ok h0 ->
  exists doc h' m', write_xml ord h m = Some doc /\ valid doc = true /\ read_xml ord' sci step cwd h0 doc = SxDone (h', Some m') /\ model_back h m h' m' /\ enrolled h' m' /\ all_resolved m' /\
  exists ids ls ys zs, Permutation ids (feature_ids t) /\ NoDup ids /\ Forall2 (calls_at h m) ids ls /\ m_boolean m' = ys ++ zs /\
    Forall2 (fun x c => forall e, spelled h' (c_expr c) e <-> x = named_leaves e) (flat_map booleans (constraints_of (List.concat ls))) ys /\ Forall2 (constraint_back h h') (others m) zs.
Proof.
  intros Oo Oo' So R En Rs W K. destruct (document_ok ord Oo h m t R En Rs W sci step So cwd) as (doc & ids & ls & bs & ns & xs & E & V & Pi & Ni & Ca & C3 & C4 & C5 & St). fold (all_calls m ls bs ns xs) in St.
  destruct (declared h m t R W ids ls bs ns xs Pi Ni Ca C3 C4 C5) as (rn & gs & Gr & Dc & G1 & G2 & Nn & Od). pose proof (plain_requests _ (stands_plain sci step cwd doc _ St)) as Rq.
  pose proof (described h m t R Rs ids ls bs ns xs Pi Ca C3 C4 C5 rn gs Gr Dc G1 G2 Od Rq) as De.
  destruct (document_means ord' sci step Oo' cwd h0 doc _ _ K V St De) as (h' & m' & ps & Er & K' & _ & _ & A & D2 & En' & Rs').
  destruct (alternatives_found ord' sci step Oo' cwd h0 doc _ _ K V St De) as (h2 & m2 & Er2 & Al). rewrite Er in Er2. injection Er2 as <- <-.
  exists doc, h', m'. split; [exact E|]. split; [exact V|]. split; [exact Er|]. split; [|split; [exact En'|]; split; [exact Rs'|]].
  - exact (all_back h m t R Rs W ids ls bs ns xs Pi Ca C3 C4 C5 rn gs Gr G1 G2 h' m' ps A D2 Al).
  - destruct (back_list h m t R Rs ids ls bs ns xs Pi Ca C3 C4 C5 rn gs Gr G1 G2 h' m' ps A) as (ys & zs & Q). exists ids, ls, ys, zs. auto.
Qed.
Theorem written_and_read ord ord' sci step cwd h m t h0 : is_order ord -> is_order ord' -> sci_nonneg sci -> represents h m t -> enrolled h m -> all_resolved m -> writable h m -> heap_ok h0 ->
  exists doc h' m', write_xml ord h m = Some doc /\ valid doc = true /\ read_xml ord' sci step cwd h0 doc = SxDone (h', Some m') /\ model_back h m h' m' /\ enrolled h' m' /\ all_resolved m'.
Proof.
  intros Oo Oo' So R En Rs W K. destruct (written_and_read_list ord ord' sci step cwd h m t h0 Oo Oo' So R En Rs W K) as (doc & h' & m' & E & V & Er & B & En' & Rs' & _). exists doc, h', m'. auto 7.
Qed.
