(** The calls the written options stand for when nobody is called root or base. *)
From Coq Require Import List ZArith NArith Arith Bool Ascii String Permutation Lia.
From Verif Require Import Text TextProofs NumSpec LlvmInt ConstraintModel ConstraintParserModel ConstraintSpec SourceRangeModel FeatureTreeModel FeatureTreeSpec FeatureTransactionModel
  FeatureTransactionSpec FeatureEditSpec FeatureTreeProofs FeatureOrderProofs FeatureEditProofs FeatureTransactionFinal FeatureDataProofs FeatureCloneSpec FeatureCloneProofs FeatureMergeResult FeatureBuildSpec SxfmModel XmlModel
  XmlWriterModel XmlSpec XmlDetectProofs XmlReadProofs XmlTripSpec XmlTripText XmlTripWrite XmlTripOption XmlTripCalls XmlTripDoc XmlDetectFinal XmlBelowSpec ConstraintRoundTrip.
Import ListNotations.
Local Open Scope string_scope.
Local Open Scope list_scope.
Local Open Scope nat_scope.

Section Model.
Variable ord : list nid -> list nid.
Hypothesis ord_ok : is_order ord.
Variables (h : heap) (m : fmodel) (t : tree).
Hypothesis R : represents h m t.
Hypothesis En : enrolled h m.
Hypothesis Rs : all_resolved m.
Hypothesis W : writable_below h m.

Let in_ids := XmlTripCalls.in_ids h m t R.
Let id_data := XmlTripCalls.id_data h m t R.
Let top_id := XmlTripCalls.top_id h m t R.
Let parent_names := XmlTripCalls.parent_names h m t R.
Let no_parent_root := XmlTripCalls.no_parent_root h m t R.
Local Notation says := (XmlTripCalls.says h m).
Lemma name_good s i : get_feature m s = Some i -> good s.
Proof.
  intros G. destruct (id_data i (in_ids i s G)) as (f & F & _). pose proof (name_unique h m t R i s f G F) as <-. destruct (wb_features h m W _ i f G F) as (A & B & _). split; assumption.
Qed.
Lemma option_lists i f : In i (feature_ids t) -> feature_at h i = Some f -> exists q cn im ex nu rs,
  write_feature ord h m i = Some (option_doc f q cn im ex nu rs) /\ write_kind (f_kind f) = Some nu /\ map_option write_range (f_locations f) = Some rs /\
  (forall p, q = Some p <-> parent_named h m (f_name f) p) /\ (forall n, In n cn <-> parent_named h m n (f_name f)) /\
  (forall n, In n im <-> says BImplies i n) /\ (forall n, In n ex <-> says BExcludes i n) /\
  (exists is is', right_sides h m f (f_implications f) = Some is /\ Permutation is' is /\ Forall2 (fun j n => get_feature m n = Some j) is' im) /\ NoDup ex /\
  (exists cs cs', incl cs (feature_ids t) /\ NoDup cs /\ insert_all h [] cs = Some cs' /\ Forall2 (fun j n => get_feature m n = Some j) cs' cn) /\
  (exists is is', incl is (feature_ids t) /\ insert_all h [] is = Some is' /\ Forall2 (fun j n => get_feature m n = Some j) is' im) /\
  (exists ss ss' es es', incl ss (feature_ids t) /\ incl es (feature_ids t) /\ insert_all h [] ss = Some ss' /\ insert_new h ss' es = Some es' /\ Forall2 (fun j n => get_feature m n = Some j) es' ex).
Proof.
  intros I F. destruct (id_data i I) as (f0 & F0 & G). assert (f0 = f) as -> by congruence. clear F0. pose proof (wb_features h m W _ i f G F) as (Nn & Tn & Wk & Pl).
  assert (Q : exists q, (let* q := parent_feature h i in match q with None => Some [] | Some p => let* s := name_at h p in Some [leaf_elem "parent" s] end) = Some (parent_elems q) /\ (forall p, q = Some p <-> parent_named h m (f_name f) p)).
  { destruct (parent_ok h m t R i I) as [(-> & ->)|(p & Np & -> & A & Ip)]; cbn [bind].
    - exists None. split; [reflexivity|]. intros p. split; [discriminate|]. intros X. destruct (no_parent_root _ p G X).
    - destruct (id_data p Ip) as (g & Fg & Gg). unfold name_at. rewrite Fg. cbn [bind]. exists (Some (f_name g)). split; [reflexivity|]. assert (Pn : parent_named h m (f_name f) (f_name g)) by (exists i, p; auto).
      intros s. split; [intros E; injection E as <-; exact Pn|]. intros X. f_equal. symmetry. exact (proj2 (parent_names _ _ Pn) s X). }
  destruct Q as (q & Eq & Sq).
  destruct (rep_children ord ord_ok h m t R i I) as (cs & Ec & Nc & Sc).
  assert (Ci : incl cs (feature_ids t)) by (intros x X; apply Sc in X; apply (in_features h m t R), X).
  destruct (insert_all_ok h m t R cs [] (incl_nil_l _) Ci) as (cs' & Ec' & Pc). rewrite app_nil_r in Pc.
  destruct (write_names_ok h m t R "children" cs') as (cn & En1 & Sn1 & Fn1); [intros x X; apply Ci, (Permutation_in _ Pc X)|].
  destruct (right_sides_ok h m t R En Rs ClassImplies BImplies i f (f_implications f)) as (is & Ei & Si); auto.
  { intros e. destruct e as [o a b| | |]; cbn; try discriminate. destruct o; try discriminate. eauto. } { intros id. exact (en_implies h m En _ i f id G F). }
  assert (Ii : incl is (feature_ids t)) by (intros x X; apply Si in X; apply X).
  destruct (insert_all_ok h m t R is [] (incl_nil_l _) Ii) as (is' & Ei' & Pi). rewrite app_nil_r in Pi.
  destruct (write_names_ok h m t R "impliedOptions" is') as (im & En2 & Sn2 & Fn2); [intros x X; apply Ii, (Permutation_in _ Pi X)|].
  destruct (siblings_ok ord ord_ok h m t R i I) as (ss & Es & Ss & Ns).
  assert (Is : incl ss (feature_ids t)) by (intros x X; apply Ss in X; apply X).
  destruct (insert_all_ok h m t R ss [] (incl_nil_l _) Is) as (ss' & Es' & Ps). rewrite app_nil_r in Ps.
  destruct (right_sides_ok h m t R En Rs ClassExcludes BExcludes i f (f_excludes f)) as (es & Ee & Se); auto.
  { intros e. destruct e as [o a b| | |]; cbn; try discriminate. destruct o; try discriminate. eauto. } { intros id. exact (en_excludes h m En _ i f id G F). }
  assert (Ie : incl es (feature_ids t)) by (intros x X; apply Se in X; apply X).
  destruct (insert_new_ok h m t R es ss') as (es' & Ee' & Pe & Ne); [intros x X; apply Is, (Permutation_in _ Ps X)|exact Ie|].
  destruct (write_names_ok h m t R "excludedOptions" es') as (ex & En3 & Sn3 & Fn3).
  { intros x X. apply Pe in X. destruct X as [X|X]; [apply Is, (Permutation_in _ Ps X)|apply Ie, X]. }
  destruct (kind_written (fun _ => None) _ Wk) as (nu & Ek & _). destruct (ranges_ok _ Pl) as (rs & Er & _).
  exists q, cn, im, ex, nu, rs. split.
  { unfold write_feature. rewrite F. cbn [bind]. destruct (parent_feature h i) as [pf|]; [|discriminate]. cbn [bind] in Eq |- *. rewrite Eq. cbn [bind]. rewrite Ec. cbn [bind]. rewrite Ec'. cbn [bind]. rewrite En1. cbn [bind].
    rewrite Ei. cbn [bind]. rewrite Ei'. cbn [bind]. rewrite En2. cbn [bind]. rewrite Es. cbn [bind]. rewrite Es'. cbn [bind]. rewrite Ee. cbn [bind]. rewrite Ee'. cbn [bind]. rewrite En3. cbn [bind]. rewrite Ek. cbn [bind]. rewrite Er. reflexivity. }
  split; [exact Ek|]. split; [exact Er|]. split; [exact Sq|]. split; [|split; [|split; [|split; [exists is, is'; auto|split; [|split; [exists cs, cs'; auto|split; [exists is, is'; auto|exists ss, ss', es, es'; auto 6]]]]]]].
  - intros n. rewrite Sn1. split.
    + intros (j & J & Gj). exists j, i. apply (Permutation_in _ Pc) in J. apply Sc in J. split; [exact Gj|]. split; [exact G|apply J].
    + intros (j & i' & Gj & Gi & A). assert (i' = i) as -> by congruence. exists j. split; [|exact Gj]. apply (Permutation_in _ (Permutation_sym Pc)). apply Sc. split; eauto.
  - intros n. rewrite Sn2. split.
    + intros (j & J & Gj). exists j. apply (Permutation_in _ Pi) in J. apply Si in J. tauto.
    + intros (j & Gj & [X|(X & _)]); [|discriminate]. exists j. split; [|exact Gj]. apply (Permutation_in _ (Permutation_sym Pi)). apply Si. split; [exact (in_ids j n Gj)|exact X].
  - intros n. rewrite Sn3. split.
    + intros (j & J & Gj). exists j. split; [exact Gj|]. apply Pe in J. destruct J as [J|J]; [apply (Permutation_in _ Ps), Ss in J; tauto|apply Se in J; tauto].
    + intros (j & Gj & X). exists j. split; [|exact Gj]. apply Pe. destruct X as [X|(_ & N & X)]; [right; apply Se|left; apply (Permutation_in _ (Permutation_sym Ps)), Ss]; pose proof (in_ids j n Gj); tauto.
  - specialize (Ne (Permutation_NoDup (Permutation_sym Ps) Ns)). clear - Fn3 Ne. induction Fn3 as [|j n l ns Gj Fn IH]; [constructor|]. inversion Ne as [|? ? Nj Ne']; subst. constructor; [|exact (IH Ne')].
    intros X. apply Nj. clear - Fn X Gj. induction Fn as [|k n' l ns Gk Fn IH]; [destruct X|]. destruct X as [->|X]; [left; congruence|right; exact (IH X)].
Qed.
Lemma option_written i f : In i (feature_ids t) -> feature_at h i = Some f -> exists q cn im ex nu rs,
  write_feature ord h m i = Some (option_doc f q cn im ex nu rs) /\ write_kind (f_kind f) = Some nu /\ map_option write_range (f_locations f) = Some rs /\
  (forall p, q = Some p <-> parent_named h m (f_name f) p) /\ (forall n, In n cn <-> parent_named h m n (f_name f)) /\
  (forall n, In n im <-> says BImplies i n) /\ (forall n, In n ex <-> says BExcludes i n) /\
  (exists is is', right_sides h m f (f_implications f) = Some is /\ Permutation is' is /\ Forall2 (fun j n => get_feature m n = Some j) is' im) /\ NoDup ex.
Proof.
  intros I F. destruct (option_lists i f I F) as (q & cn & im & ex & nu & rs & A1 & A2 & A3 & A4 & A5 & A6 & A7 & A8 & A9 & _). exists q, cn, im, ex, nu, rs. auto 12.
Qed.

(** What the calls of an option say. *)
Record option_calls (i : nid) (f : feature) (l : list bcall) : Prop := OptionCalls {
  oc_inner : Forall inner l;
  oc_edges : forall p s, In (BEdge p s) l -> parent_named h m s p;
  oc_parent : forall p, parent_named h m (f_name f) p -> In (BEdge p (f_name f)) l;
  oc_constraints : forall k x, In (BConstraint k x) l <-> k = KBoolean /\ exists o n, (o = BImplies \/ o = BExcludes) /\ says o i n /\ x = CBin o (CFeat (Own (f_name f))) (CFeat (Own n));
  oc_list : exists is is' im ex, right_sides h m f (f_implications f) = Some is /\ Permutation is' is /\ Forall2 (fun j n => get_feature m n = Some j) is' im /\ NoDup ex /\
    constraints_of l = map (fun n => (KBoolean, CBin BImplies (CFeat (Own (f_name f))) (CFeat (Own n)))) im ++ map (fun n => (KBoolean, CBin BExcludes (CFeat (Own (f_name f))) (CFeat (Own n)))) ex;
  oc_decl : exists c, decls l = [c] /\ exists g, c = BFeature g /\ back (demoted f) g /\ f_kind g <> FRoot
}.

Section Reading.
Variables (sci : text -> option text) (step : text -> sx (option (Z -> option Z))).
Hypothesis sci_ok : sci_nonneg sci.
Lemma option_ok i f : In i (feature_ids t) -> feature_at h i = Some f -> exists e l,
  write_feature ord h m i = Some e /\ tag e = T "configurationOption" /\ valid e = true /\ option_stands sci step (num_kind (f_kind f)) e l /\ option_calls i f l.
Proof.
  intros I F. destruct (option_written i f I F) as (q & cn & im & ex & nu & rs & E & Ek & Er & Sq & Sc & Si & Se & (is & is' & Ri & Pm & Fm) & Nx). destruct (id_data i I) as (f0 & F0 & G). assert (f0 = f) as -> by congruence. clear F0.
  assert (Df : f_name (demoted f) = f_name f /\ f_optional (demoted f) = f_optional f /\ f_locations (demoted f) = f_locations f /\ num_kind (f_kind (demoted f)) = num_kind (f_kind f) /\ write_kind (f_kind (demoted f)) = write_kind (f_kind f) /\ f_kind (demoted f) <> FRoot).
  { unfold demoted. destruct (f_kind f) eqn:K; cbn; rewrite ?K; repeat (split; [reflexivity|]); try rewrite K; discriminate. }
  destruct Df as (D1 & D2 & D3 & D4 & D5 & D6).
  assert (Dd : option_doc (demoted f) q cn im ex nu rs = option_doc f q cn im ex nu rs) by (unfold option_doc, flag; rewrite D1, D2; reflexivity).
  destruct (option_meaning sci step (demoted f) q cn im ex nu rs) as (V & c & St & _ & Ft); auto.
  { destruct (wb_features h m W _ i f G F) as (A1 & A2 & A3 & A4). unfold writable_feature. rewrite D1, D3. split; [exact A1|]. split; [exact A2|]. split; [|exact A4]. unfold demoted. destruct (f_kind f) eqn:K; cbn [f_kind]; rewrite ?K; exact A3. }
  { destruct q as [p|]; [|exact Logic.I]. destruct (proj1 (Sq p) eq_refl) as (a & b & _ & Gp & _). exact (name_good p b Gp). }
  { apply Forall_forall. intros n N. apply Sc in N. destruct N as (a & b & Ga & _). exact (name_good n a Ga). }
  { apply Forall_forall. intros n N. apply Si in N. destruct N as (a & Ga & _). exact (name_good n a Ga). }
  { apply Forall_forall. intros n N. apply Se in N. destruct N as (a & Ga & _). exact (name_good n a Ga). }
  { rewrite D5. exact Ek. }
  { rewrite D3. exact Er. }
  rewrite Dd, D1, D4 in *. destruct (wb_names h m W _ i G) as (N1 & N2). specialize (Ft N1 N2 D6).
  eexists _, _. split; [exact E|]. split; [reflexivity|]. split; [exact V|]. split; [exact St|].
  pose proof Ft as C.
  assert (Cd : match c with BFeature _ | BRoot _ => True | _ => False end) by (destruct Ft as (g & -> & _); exact Logic.I).
  assert (Parent : forall a b, In (BEdge a b) (match q with Some s => [BEdge s (f_name f)] | None => [] end) <-> b = f_name f /\ q = Some a).
  { intros a b. destruct q as [p|]; cbn; [|split; [intros []|intros (_ & X); discriminate]]. split; [intros [X|[]]; injection X as -> ->; auto|intros (-> & X); injection X as ->; auto]. }
  constructor.
  - apply Forall_app. split; [destruct q; repeat constructor|]. apply Forall_app. split; [apply Forall_map; apply Forall_forall; intros; exact Logic.I|].
    apply Forall_app. split; [apply Forall_map; apply Forall_forall; intros; exact Logic.I|]. apply Forall_app. split; [apply Forall_map; apply Forall_forall; intros; exact Logic.I|].
    constructor; [|constructor]. destruct c; try contradiction; exact Logic.I.
  - intros p s X. rewrite !in_app_iff in X. destruct X as [X|[X|[X|[X|X]]]].
    + apply Parent in X. destruct X as (-> & X). apply Sq. exact X.
    + apply in_map_iff in X. destruct X as (n & X & N). injection X as <- <-. apply Sc. exact N.
    + apply in_map_iff in X. destruct X as (n & X & N). discriminate.
    + apply in_map_iff in X. destruct X as (n & X & N). discriminate.
    + destruct X as [X|[]]. subst c. destruct Cd.
  - intros p X. apply in_app_iff. left. apply Parent. split; [reflexivity|]. apply Sq. exact X.
  - intros k x. rewrite !in_app_iff. split.
    + intros [X|[X|[X|[X|X]]]].
      * destruct q; [destruct X as [X|[]]; discriminate|destruct X].
      * apply in_map_iff in X. destruct X as (n & X & N). discriminate.
      * apply in_map_iff in X. destruct X as (n & X & N). injection X as <- <-. split; [reflexivity|]. exists BImplies, n. apply Si in N. auto.
      * apply in_map_iff in X. destruct X as (n & X & N). injection X as <- <-. split; [reflexivity|]. exists BExcludes, n. apply Se in N. auto.
      * destruct X as [X|[]]. subst c. destruct Cd.
    + intros (-> & o & n & [->| ->] & Sy & ->); right; right; [left|right; left]; apply in_map_iff; exists n; (split; [reflexivity|]); [apply Si|apply Se]; exact Sy.
  - exists is, is', im, ex. split; [exact Ri|]. split; [exact Pm|]. split; [exact Fm|]. split; [exact Nx|]. unfold constraints_of. rewrite !flat_map_app. unfold pairs.
    assert (Z1 : flat_map (fun c => match c with BConstraint k e => [(k, e)] | _ => [] end) match q with Some s => [BEdge s (f_name f)] | None => [] end = []) by (destruct q; reflexivity).
    assert (Z2 : flat_map (fun c => match c with BConstraint k e => [(k, e)] | _ => [] end) (map (BEdge (f_name f)) cn) = []) by (clear; induction cn as [|a l IH]; [reflexivity|exact IH]).
    assert (Z3 : flat_map (fun c => match c with BConstraint k e => [(k, e)] | _ => [] end) [c] = []) by (destruct c; try contradiction; reflexivity).
    assert (Z4 : forall o l, flat_map (fun c => match c with BConstraint k e => [(k, e)] | _ => [] end) (map (fun x => BConstraint KBoolean (CBin o (CFeat (Own (f_name f))) (CFeat (Own x)))) l) = map (fun n => (KBoolean, CBin o (CFeat (Own (f_name f))) (CFeat (Own n)))) l)
      by (clear; intros o l; induction l as [|a l IH]; [reflexivity|cbn [map flat_map app]; f_equal; exact IH]).
    rewrite Z1, Z2, Z3, !Z4, app_nil_r. reflexivity.
  - exists c. split; [|exact C]. rewrite !decls_app.
    assert (None_of : forall A (g : A -> bcall) l, (forall a, match g a with BFeature _ | BRoot _ => False | _ => True end) -> decls (map g l) = []).
    { intros A g l X. induction l as [|a l IH]; [reflexivity|]. cbn [map]. unfold decls in *. cbn [flat_map]. rewrite IH. specialize (X a). destruct (g a); try contradiction; reflexivity. }
    unfold pairs. rewrite !None_of by (intros; exact Logic.I). destruct q; cbn [app decls flat_map]; destruct c; try contradiction; reflexivity.
Qed.

Local Notation plain_call_of := (XmlTripDoc.plain_call_of h).
Local Notation mixed_call_of := (XmlTripDoc.mixed_call_of h).
Local Notation others := (XmlTripDoc.others m).
Local Notation head_calls := (XmlTripDoc.head_calls m).
Let plain_ok := XmlTripDoc.plain_ok h sci sci_ok.
Let mixed_ok := XmlTripDoc.mixed_ok h sci sci_ok.
Definition calls_at (i : nid) (l : list bcall) : Prop := exists f, feature_at h i = Some f /\ option_calls i f l.
Definition kind_at (p : fkind -> bool) (i : nid) : bool := match feature_at h i with Some f => p (f_kind f) | None => false end.
Lemma features_ok p num ids : (forall k, p k = true -> num_kind k = num) -> incl ids (feature_ids t) ->
  exists es ls, map_option (fun i => let* f := feature_at h i in if p (f_kind f) then let* e := write_feature ord h m i in Some [e] else Some []) ids = Some es /\
    Forall (fun e => tag e = T "configurationOption" /\ valid e = true) (List.concat es) /\ Forall2 (option_stands sci step num) (List.concat es) ls /\ Forall2 calls_at (filter (kind_at p) ids) ls.
Proof.
  intros Pn. induction ids as [|i ids IH]; intros I; [exists [], []; repeat split; constructor|]. destruct IH as (es & ls & E & F & S1 & C); [intros x X; apply I; right; exact X|].
  destruct (id_data i (I i (or_introl eq_refl))) as (f & Ff & _). cbn [map_option filter]. unfold kind_at at 1. rewrite Ff. cbn [bind]. destruct (p (f_kind f)) eqn:Pf.
  - destruct (option_ok i f (I i (or_introl eq_refl)) Ff) as (e & l & Ew & Te & Ve & Se & Ce). rewrite Ew. cbn [bind]. rewrite E. exists ([e] :: es), (l :: ls).
    split; [reflexivity|]. cbn [List.concat app]. split; [constructor; auto|]. split; constructor; auto; [rewrite <- (Pn _ Pf); exact Se|exists f; auto].
  - cbn [bind]. rewrite E. exists ([] :: es), ls. split; [reflexivity|]. auto.
Qed.

Lemma others_ok c : In c others -> exists e, spelled h (c_expr c) e /\ expressible e.
Proof.
  intros I. apply filter_In in I. destruct I as (I & N). destruct (wb_boolean h m W c I) as [P|X]; [|exact X]. apply is_pair_iff in P. rewrite P in N. discriminate.
Qed.

Lemma document_ok cwd : exists doc ids ls bs ns xs, write_xml ord h m = Some doc /\ valid doc = true /\ Permutation ids (feature_ids t) /\ NoDup ids /\ Forall2 calls_at ids ls /\
  Forall2 (plain_call_of KBoolean) others bs /\ Forall2 (plain_call_of KNonBoolean) (m_nonboolean m) ns /\ Forall2 mixed_call_of (m_mixed m) xs /\
  stands sci step cwd doc (head_calls ++ List.concat ls ++ bs ++ ns ++ xs).
Proof.
  destruct (SampleProofs.model_features_spec ord h m t ord_ok R) as (ids & Ei & _ & Pi & Ni). unfold SampleModel.model_features in Ei.
  assert (Ii : incl ids (feature_ids t)) by (intros x X; exact (Permutation_in _ Pi X)).
  destruct (features_ok is_binary_option false ids) as (es1 & ls1 & E1 & F1 & S1 & C1); [intros [| | |]; auto; discriminate|exact Ii|].
  destruct (features_ok is_numeric_option true ids) as (es2 & ls2 & E2 & F2 & S2 & C2); [intros [| | |]; auto; discriminate|exact Ii|].
  destruct (plain_ok KBoolean others others_ok) as (es3 & bs & E3 & F3 & S3 & C3).
  destruct (plain_ok KNonBoolean _ (wb_nonboolean h m W)) as (es4 & ns & E4 & F4 & S4 & C4).
  destruct (mixed_ok _ (wb_mixed h m W)) as (es5 & xs & E5 & F5 & S5 & C5).
  destruct (section_ok "booleanConstraints" _ (m_boolean m) _ _ E3) as (s3 & W3 & V3); [unfold others; intros ->; reflexivity|].
  destruct (section_ok "nonBooleanConstraints" _ (m_nonboolean m) _ _ E4) as (s4 & W4 & V4); [auto|].
  destruct (section_ok "mixedConstraints" _ (m_mixed m) _ _ E5) as (s5 & W5 & V5); [auto|].
  exists (Elem (T "vm") ((T "name", m_name m) :: (T "root", m_path m) :: match m_commit m with [] => [] | t => [(T "commit", t)] end) []
    (elem "binaryOptions" (List.concat es1) :: elem "numericOptions" (List.concat es2) :: s3 ++ s4 ++ s5)).
  exists (filter (kind_at is_binary_option) ids ++ filter (kind_at is_numeric_option) ids), (ls1 ++ ls2), bs, ns, xs.
  assert (Ca : Forall2 calls_at (filter (kind_at is_binary_option) ids ++ filter (kind_at is_numeric_option) ids) (ls1 ++ ls2)) by (apply Forall2_app; assumption).
  split; [|split; [|split; [|split; [|split; [exact Ca|split; [exact C3|split; [exact C4|split; [exact C5|]]]]]]]].
  - unfold write_xml, write_features. rewrite Ei. cbn [bind]. rewrite E1. cbn [bind]. rewrite E2. cbn [bind]. fold others. rewrite W3. cbn [bind]. rewrite W4. cbn [bind]. rewrite W5. reflexivity.
  - assert (V : forall s es secs, declaration_of (T s) = Some (Below (PMany "constraint")) -> attribute_declarations (T s) = [] -> Forall (fun e => tag e = T "constraint" /\ valid e = true) es ->
      (secs = [] /\ es = [] \/ secs = [elem s es]) -> forallb valid secs = true /\ one_of s (map tag secs)).
    { intros s es secs D A F [(-> & _)| ->]; (split; [|unfold one_of; auto]); [reflexivity|]. cbn [forallb]. rewrite (many_valid s "constraint" es D A F). reflexivity. }
    destruct (V "booleanConstraints" _ _ eq_refl eq_refl F3 V3) as (X3 & O3). destruct (V "nonBooleanConstraints" _ _ eq_refl eq_refl F4 V4) as (X4 & O4). destruct (V "mixedConstraints" _ _ eq_refl eq_refl F5 V5) as (X5 & O5).
    match goal with |- valid (Elem _ ?a _ ?x) = true => set (es := x); set (ats := a) end. cbn [valid]. rewrite !andb_true_iff. split; [split|].
    + subst ats. destruct (m_commit m); reflexivity.
    + change (declaration_of (T "vm")) with (Some (Below (sequence [PTag "binaryOptions"; PMaybe (PTag "numericOptions"); PMaybe (PTag "booleanConstraints"); PMaybe (PTag "nonBooleanConstraints")] (PMaybe (PTag "mixedConstraints"))))).
      cbn [forallb andb]. apply fits_matches. subst es. cbn [map]. rewrite !map_app. cbn [sequence].
      apply (mt_seq (PTag "binaryOptions") _ [T "binaryOptions"]); [apply mt_tag|]. apply (mt_seq _ _ [T "numericOptions"]); [apply mt_some, mt_tag|].
      apply mt_seq; [apply one_maybe; exact O3|]. apply mt_seq; [apply one_maybe; exact O4|apply one_maybe; exact O5].
    + subst es. cbn [forallb]. rewrite !forallb_app, X3, X4, X5. rewrite (many_valid "binaryOptions" "configurationOption" _ eq_refl eq_refl F1), (many_valid "numericOptions" "configurationOption" _ eq_refl eq_refl F2). reflexivity.
  - rewrite <- Pi. assert (K : forall i, In i ids -> xorb (kind_at is_binary_option i) (kind_at is_numeric_option i) = true).
    { intros i I. destruct (id_data i (Ii i I)) as (f & Ff & G). destruct (wb_features h m W _ i f G Ff) as (_ & _ & Wk & _). unfold kind_at. rewrite Ff. destruct (f_kind f); try reflexivity. destruct Wk. }
    clear -K. induction ids as [|i ids IH]; [constructor|]. cbn [filter]. assert (Ki := K i (or_introl eq_refl)). assert (P : Permutation (filter (kind_at is_binary_option) ids ++ filter (kind_at is_numeric_option) ids) ids) by (apply IH; intros x X; apply K; right; exact X).
    destruct (kind_at is_binary_option i), (kind_at is_numeric_option i); try discriminate; cbn [app]; [constructor; exact P|]. rewrite <- Permutation_middle. constructor. exact P.
  - assert (K : forall i, kind_at is_binary_option i = true -> kind_at is_numeric_option i = true -> False) by (intros i; unfold kind_at; destruct (feature_at h i) as [f|]; [destruct (f_kind f)|]; discriminate).
    assert (forall l k : list nid, NoDup l -> NoDup k -> (forall x, In x l -> In x k -> False) -> NoDup (l ++ k)) as Ap.
    { clear. intros l k Nl Nk D. induction Nl as [|x l Nx Nl IH]; [exact Nk|]. cbn. constructor; [|apply IH; intros y A B; apply (D y); [right; exact A|exact B]]. rewrite in_app_iff. intros [A|A]; [contradiction|apply (D x); [left; reflexivity|exact A]]. }
    apply Ap; [apply NoDup_filter; exact Ni|apply NoDup_filter; exact Ni|]. intros x X Y. apply filter_In in X, Y. exact (K x (proj2 X) (proj2 Y)).
  - destruct (section_calls (section_stands sci step) "booleanConstraints" es3 s3 bs V3) as (l3 & G3 & Q3); [intros ->; inversion S3; reflexivity|exact S3|].
    destruct (section_calls (section_stands sci step) "nonBooleanConstraints" es4 s4 ns V4) as (l4 & G4 & Q4); [intros ->; inversion S4; reflexivity|exact S4|].
    destruct (section_calls (section_stands sci step) "mixedConstraints" es5 s5 xs V5) as (l5 & G5 & Q5); [intros ->; inversion S5; reflexivity|exact S5|].
    exists (List.concat ls1 :: List.concat ls2 :: l3 ++ l4 ++ l5). split; [|split].
    + cbn [elems]. constructor; [exists ls1; auto|]. constructor; [exists ls2; auto|]. repeat apply Forall2_app; assumption.
    + assert (X : forall p s, In (BEdge p s) (head_calls ++ List.concat (ls1 ++ ls2) ++ bs ++ ns ++ xs) -> parent_named h m s p).
      { intros p s I. rewrite !in_app_iff in I. destruct I as [I|[I|[I|[I|I]]]].
        - cbn in I. destruct I as [I|[I|[I|[]]]]; discriminate.
        - apply in_concat in I. destruct I as (l & L & I). destruct (forall2_right _ _ _ Ca l L) as (i & _ & f & _ & O). exact (oc_edges _ _ _ O p s I).
        - destruct (forall2_right _ _ _ C3 _ I) as (c & _ & e & _ & X). discriminate.
        - destruct (forall2_right _ _ _ C4 _ I) as (c & _ & e & _ & X). discriminate.
        - destruct (forall2_right _ _ _ C5 _ I) as (c & _ & e & _ & X). discriminate. }
      intros p q s Ip Iq. apply X in Ip, Iq. exact (proj2 (parent_names s q Iq) p Ip).
    + unfold head_calls. cbn [app List.concat]. rewrite !concat_app, Q3, Q4, Q5, <- app_assoc. unfold attr. cbn [attributes]. pose proof (wb_name h m W) as Tn. pose proof (wb_path h m W) as Tp. pose proof (wb_commit h m W) as Tc. unfold tidy in *.
      f_equal; [|f_equal; [|f_equal]].
      * transitivity (BName (trim (m_name m))); [rewrite Tn|]; reflexivity.
      * transitivity (BPath (trim (m_path m))); [rewrite Tp|]; reflexivity.
      * destruct (m_commit m) as [|c r]; [reflexivity|]. transitivity (BCommit (trim (c :: r))); [rewrite Tc|]; reflexivity.
Qed.
End Reading.
End Model.
