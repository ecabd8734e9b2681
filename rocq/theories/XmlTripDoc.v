(** The document written for a model: it is valid and stands for calls that describe the
    model. *)
From Coq Require Import List ZArith NArith Arith Bool Ascii String Permutation Lia.
From Verif Require Import Text TextProofs NumSpec LlvmInt ConstraintModel ConstraintParserModel ConstraintSpec ConstraintRoundTrip SourceRangeModel FeatureTreeModel FeatureTreeSpec FeatureTransactionModel
  FeatureTransactionSpec FeatureEditSpec FeatureTreeProofs FeatureOrderProofs FeatureEditProofs FeatureTransactionFinal FeatureDataProofs FeatureCloneSpec FeatureCloneProofs FeatureMergeResult FeatureBuildSpec SxfmModel SxfmFinal XmlModel
  XmlWriterModel XmlSpec XmlDetectProofs XmlDetectFinal XmlReadProofs XmlTripSpec XmlTripText XmlTripWrite XmlTripOption XmlTripCalls.
From Verif Require SampleModel SampleProofs.
Import ListNotations.
Local Open Scope string_scope.
Local Open Scope list_scope.
Local Open Scope nat_scope.

(** ** Texts of constraints *)
Lemma spelled_spell h c e : spelled h c e -> spell h c = Some e.
Proof.
  intros X. induction X as [o l r l' r' _ IHl _ IHr|o x x' _ IH|n|r s C]; cbn [spell].
  - rewrite IHl. cbn [bind]. rewrite IHr. reflexivity.
  - rewrite IH. reflexivity.
  - reflexivity.
  - destruct r as [u|i]; cbn [called_in cref_name] in *.
    + subst u. cbn [bind]. rewrite U_T. reflexivity.
    + destruct C as (f & F & N). unfold name_at. rewrite F. cbn [bind]. rewrite N, U_T. reflexivity.
Qed.
Lemma spelled_unique h c e e' : spelled h c e -> spelled h c e' -> e = e'.
Proof. intros A B. apply spelled_spell in A, B. congruence. Qed.
Lemma spelled_leaves h c e : spelled h c e -> forall s, In s (leaves e) -> exists r, In r (leaves c) /\ called_in h r s.
Proof.
  intros X. induction X as [o l r l' r' _ IHl _ IHr|o x x' _ IH|n|r u C]; cbn [leaves]; intros s I.
  - apply in_app_iff in I. destruct I as [I|I]; [apply IHl in I|apply IHr in I]; destruct I as (q & Q & D); exists q; rewrite in_app_iff; auto.
  - exact (IH s I).
  - destruct I.
  - destruct I as [<-|[]]. exists r. split; [left; reflexivity|exact C].
Qed.
Lemma leaves_implies {F} (c : cexpr F) : leaves (excludes_as_implies c) = leaves c.
Proof. induction c as [o l IHl r IHr|o e IH|n|f]; cbn [excludes_as_implies leaves]; [|exact IH|reflexivity|reflexivity]. destruct o; cbn [leaves]; rewrite IHl, IHr; reflexivity. Qed.

(** ** Sections *)
Lemma section_ok {A} s (f : A -> option xml) all written es : map_option f written = Some es -> (all = [] -> written = []) ->
  exists secs, write_section s f all written = Some secs /\ (secs = [] /\ es = [] \/ secs = [elem s es]).
Proof.
  intros E N. unfold write_section. destruct all as [|a all].
  - exists []. split; [reflexivity|]. left. rewrite (N eq_refl) in E. cbn in E. split; [reflexivity|congruence].
  - rewrite E. exists [elem s es]. auto.
Qed.
Lemma many_valid s u es : declaration_of (T s) = Some (Below (PMany u)) -> attribute_declarations (T s) = [] -> Forall (fun e => tag e = T u /\ valid e = true) es -> valid (elem s es) = true.
Proof.
  intros D A F. unfold elem. cbn [valid]. rewrite D. unfold attributes_ok. cbn [tag attributes forallb]. rewrite A. cbn [forallb andb]. rewrite andb_true_iff. split.
  - apply fits_matches. assert (map tag es = repeat (T u) (List.length es)) as ->; [|apply mt_many]. induction F as [|e es (X & _) F IH]; [reflexivity|]. cbn. rewrite X, IH. reflexivity.
  - apply forallb_forall. intros x I. rewrite Forall_forall in F. apply F. exact I.
Qed.

Section Model.
Variable ord : list nid -> list nid.
Hypothesis ord_ok : is_order ord.
Variables (h : heap) (m : fmodel) (t : tree).
Hypothesis R : represents h m t.
Hypothesis En : enrolled h m.
Hypothesis Rs : all_resolved m.
Hypothesis W : writable h m.
Variables (sci : text -> option text) (step : text -> sx (option (Z -> option Z))).
Hypothesis sci_ok : sci_nonneg sci.

Definition plain_call_of (k : ckind) (c : mconstraint) (b : bcall) : Prop :=
  exists e, spelled h (c_expr c) e /\ b = BConstraint k (named_leaves (excludes_as_implies e)).
Lemma plain_ok k l : (forall c, In c l -> exists e, spelled h (c_expr c) e /\ expressible e) ->
  exists es cs, map_option (write_plain h) l = Some es /\ Forall (fun e => tag e = T "constraint" /\ valid e = true) es /\ Forall2 (plain_stands sci k) es cs /\ Forall2 (plain_call_of k) l cs.
Proof.
  induction l as [|c l IH]; intros X; [exists [], []; repeat split; constructor|]. destruct IH as (es & cs & E & F & S1 & C); [intros x I; apply X; right; exact I|]. destruct (X c (or_introl eq_refl)) as (e & Sp & Ex).
  exists (leaf_elem "constraint" (to_string (fun s => s) e) :: es), (BConstraint k (named_leaves (excludes_as_implies e)) :: cs).
  split; [cbn [map_option]; unfold write_plain at 1, constraint_text; rewrite (spelled_spell _ _ _ Sp); cbn [bind]; rewrite E; reflexivity|].
  split; [constructor; [split; reflexivity|exact F]|]. split; constructor; auto.
  - exists (excludes_as_implies e). split; [|reflexivity]. rewrite leaf_content. apply (round_trip sci e sci_ok). exact Ex.
  - exists e. auto.
Qed.
Definition mixed_call_of (x : mixed) (b : bcall) : Prop :=
  exists e, spelled h (c_expr (x_con x)) e /\ b = BConstraint (KMixed (x_req x) (x_kind x)) (named_leaves (excludes_as_implies e)).
Lemma mixed_ok l : (forall x, In x l -> exists e, spelled h (c_expr (x_con x)) e /\ expressible e) ->
  exists es cs, map_option (write_mixed h) l = Some es /\ Forall (fun e => tag e = T "constraint" /\ valid e = true) es /\ Forall2 (mixed_stands sci) es cs /\ Forall2 mixed_call_of l cs.
Proof.
  induction l as [|x l IH]; intros X; [exists [], []; repeat split; constructor|]. destruct IH as (es & cs & E & F & S1 & C); [intros y I; apply X; right; exact I|]. destruct (X x (or_introl eq_refl)) as (e & Sp & Ex).
  eexists (_ :: es), (BConstraint (KMixed (x_req x) (x_kind x)) (named_leaves (excludes_as_implies e)) :: cs).
  split; [cbn [map_option]; unfold write_mixed at 1, constraint_text; rewrite (spelled_spell _ _ _ Sp); cbn [bind]; rewrite E; reflexivity|].
  split; [constructor; [split; [reflexivity|destruct (x_req x), (x_kind x); reflexivity]|exact F]|]. split; constructor; auto.
  - eexists (excludes_as_implies e), _, _. cbn [content flat_map]. rewrite app_nil_r. split; [apply (round_trip sci e sci_ok); exact Ex|]. split; [reflexivity|]. split; [reflexivity|]. destruct (x_req x), (x_kind x); reflexivity.
  - exists e. auto.
Qed.

(** ** Options *)
Definition calls_at (i : nid) (l : list bcall) : Prop := exists f, feature_at h i = Some f /\ option_calls h m i f l.
Definition kind_at (p : fkind -> bool) (i : nid) : bool := match feature_at h i with Some f => p (f_kind f) | None => false end.
Lemma features_ok p num ids : (forall k, p k = true -> num_kind k = num) -> incl ids (feature_ids t) ->
  exists es ls, map_option (fun i => let* f := feature_at h i in if p (f_kind f) then let* e := write_feature ord h m i in Some [e] else Some []) ids = Some es /\
    Forall (fun e => tag e = T "configurationOption" /\ valid e = true) (List.concat es) /\ Forall2 (option_stands sci step num) (List.concat es) ls /\ Forall2 calls_at (filter (kind_at p) ids) ls.
Proof.
  intros Pn. induction ids as [|i ids IH]; intros I; [exists [], []; repeat split; constructor|]. destruct IH as (es & ls & E & F & S1 & C); [intros x X; apply I; right; exact X|].
  destruct (id_data h m t R i (I i (or_introl eq_refl))) as (f & Ff & _). cbn [map_option filter]. unfold kind_at at 1. rewrite Ff. cbn [bind]. destruct (p (f_kind f)) eqn:Pf.
  - destruct (option_ok ord ord_ok h m t R En Rs W sci step i f (I i (or_introl eq_refl)) Ff) as (e & l & Ew & Te & Ve & Se & Ce). rewrite Ew. cbn [bind]. rewrite E. exists ([e] :: es), (l :: ls).
    split; [reflexivity|]. cbn [List.concat app]. split; [constructor; auto|]. split; constructor; auto; [rewrite <- (Pn _ Pf); exact Se|exists f; auto].
  - cbn [bind]. rewrite E. exists ([] :: es), ls. split; [reflexivity|]. auto.
Qed.

(** ** The document *)
Definition head_calls : list bcall := [BName (m_name m); BPath (m_path m); BCommit (m_commit m)].
Definition others : list mconstraint := filter (fun c => negb (is_pair (c_expr c))) (m_boolean m).
Lemma section_calls (P : xml -> list bcall -> Prop) s es secs calls : (secs = [] /\ es = [] \/ secs = [elem s es]) -> (es = [] -> calls = []) -> P (elem s es) calls -> exists ll, Forall2 P secs ll /\ List.concat ll = calls.
Proof.
  intros [(-> & E)| ->] N X; [exists []; split; [constructor|]; rewrite (N E); reflexivity|]. exists [calls]. split; [constructor; [exact X|constructor]|]. apply app_nil_r.
Qed.
Lemma is_pair_iff c : is_pair c = true <-> pair c.
Proof.
  split.
  - destruct c as [o a b| | |]; try discriminate. destruct o; try discriminate; destruct a as [| | |x]; try discriminate; destruct b as [| | |y]; try discriminate; intros _; eexists _, x, y; (split; [|reflexivity]); auto.
  - intros (o & a & b & [->| ->] & ->); reflexivity.
Qed.
Lemma others_ok c : In c others -> exists e, spelled h (c_expr c) e /\ expressible e.
Proof.
  intros I. apply filter_In in I. destruct I as (I & N). destruct (wr_boolean h m W c I) as [P|X]; [|exact X]. apply is_pair_iff in P. rewrite P in N. discriminate.
Qed.

Lemma document_ok cwd : exists doc ids ls bs ns xs, write_xml ord h m = Some doc /\ valid doc = true /\ Permutation ids (feature_ids t) /\ NoDup ids /\ Forall2 calls_at ids ls /\
  Forall2 (plain_call_of KBoolean) others bs /\ Forall2 (plain_call_of KNonBoolean) (m_nonboolean m) ns /\ Forall2 mixed_call_of (m_mixed m) xs /\
  stands sci step cwd doc (head_calls ++ List.concat ls ++ bs ++ ns ++ xs).
Proof.
  destruct (SampleProofs.model_features_spec ord h m t ord_ok R) as (ids & Ei & _ & Pi & Ni). unfold SampleModel.model_features in Ei.
  assert (Ii : incl ids (feature_ids t)) by (intros x X; exact (Permutation_in _ Pi X)).
  destruct (features_ok is_binary_option false ids) as (es1 & ls1 & E1 & F1 & S1 & C1); [intros [| | |]; auto; discriminate|exact Ii|].
  destruct (features_ok is_numeric_option true ids) as (es2 & ls2 & E2 & F2 & S2 & C2); [intros [| | |]; auto; discriminate|exact Ii|].
  destruct (plain_ok KBoolean others others_ok) as (es3 & bs & E3 & F3 & S3 & C3).
  destruct (plain_ok KNonBoolean _ (wr_nonboolean h m W)) as (es4 & ns & E4 & F4 & S4 & C4).
  destruct (mixed_ok _ (wr_mixed h m W)) as (es5 & xs & E5 & F5 & S5 & C5).
  destruct (section_ok "booleanConstraints" _ (m_boolean m) _ _ E3) as (s3 & W3 & V3); [unfold others; intros ->; reflexivity|].
  destruct (section_ok "nonBooleanConstraints" _ (m_nonboolean m) _ _ E4) as (s4 & W4 & V4); [auto|].
  destruct (section_ok "mixedConstraints" _ (m_mixed m) _ _ E5) as (s5 & W5 & V5); [auto|].
  exists (Elem (T "vm") ((T "name", m_name m) :: (T "root", m_path m) :: match m_commit m with [] => [] | t => [(T "commit", t)] end) []
    (elem "binaryOptions" (List.concat es1) :: elem "numericOptions" (List.concat es2) :: s3 ++ s4 ++ s5)).
  exists (filter (kind_at is_binary_option) ids ++ filter (kind_at is_numeric_option) ids), (ls1 ++ ls2), bs, ns, xs.
  assert (Ca : Forall2 calls_at (filter (kind_at is_binary_option) ids ++ filter (kind_at is_numeric_option) ids) (ls1 ++ ls2)) by (apply Forall2_app; assumption).
  split; [|split; [|split; [|split; [|split; [exact Ca|split; [exact C3|split; [exact C4|split; [exact C5|]]]]]]]].
  - unfold write_xml, write_features. rewrite Ei. cbn [bind]. rewrite E1. cbn [bind]. rewrite E2. cbn [bind]. fold others. rewrite W3. cbn [bind]. rewrite W4. cbn [bind]. rewrite W5. reflexivity.
  - assert (V : forall s es secs, declaration_of (T s) = Some (Below (PMany "constraint")) -> attribute_declarations (T s) = [] -> Forall (fun e => tag e = T "constraint" /\ valid e = true) es ->
      (secs = [] /\ es = [] \/ secs = [elem s es]) -> forallb valid secs = true /\ one_of s (map tag secs)).
    { intros s es secs D A F [(-> & _)| ->]; (split; [|unfold one_of; auto]); [reflexivity|]. cbn [forallb]. rewrite (many_valid s "constraint" es D A F). reflexivity. }
    destruct (V "booleanConstraints" _ _ eq_refl eq_refl F3 V3) as (X3 & O3). destruct (V "nonBooleanConstraints" _ _ eq_refl eq_refl F4 V4) as (X4 & O4). destruct (V "mixedConstraints" _ _ eq_refl eq_refl F5 V5) as (X5 & O5).
    match goal with |- valid (Elem _ ?a _ ?x) = true => set (es := x); set (ats := a) end. cbn [valid]. rewrite !andb_true_iff. split; [split|].
    + subst ats. destruct (m_commit m); reflexivity.
    + change (declaration_of (T "vm")) with (Some (Below (sequence [PTag "binaryOptions"; PMaybe (PTag "numericOptions"); PMaybe (PTag "booleanConstraints"); PMaybe (PTag "nonBooleanConstraints")] (PMaybe (PTag "mixedConstraints"))))).
      cbn [forallb andb]. apply fits_matches. subst es. cbn [map]. rewrite !map_app. cbn [sequence].
      apply (mt_seq (PTag "binaryOptions") _ [T "binaryOptions"]); [apply mt_tag|]. apply (mt_seq _ _ [T "numericOptions"]); [apply mt_some, mt_tag|].
      apply mt_seq; [apply one_maybe; exact O3|]. apply mt_seq; [apply one_maybe; exact O4|apply one_maybe; exact O5].
    + subst es. cbn [forallb]. rewrite !forallb_app, X3, X4, X5. rewrite (many_valid "binaryOptions" "configurationOption" _ eq_refl eq_refl F1), (many_valid "numericOptions" "configurationOption" _ eq_refl eq_refl F2). reflexivity.
  - rewrite <- Pi. assert (K : forall i, In i ids -> xorb (kind_at is_binary_option i) (kind_at is_numeric_option i) = true).
    { intros i I. destruct (id_data h m t R i (Ii i I)) as (f & Ff & G). destruct (wr_features h m W _ i f G Ff) as (_ & _ & Wk & _). unfold kind_at. rewrite Ff. destruct (f_kind f); try reflexivity. destruct Wk. }
    clear -K. induction ids as [|i ids IH]; [constructor|]. cbn [filter]. assert (Ki := K i (or_introl eq_refl)). assert (P : Permutation (filter (kind_at is_binary_option) ids ++ filter (kind_at is_numeric_option) ids) ids) by (apply IH; intros x X; apply K; right; exact X).
    destruct (kind_at is_binary_option i), (kind_at is_numeric_option i); try discriminate; cbn [app]; [constructor; exact P|]. rewrite <- Permutation_middle. constructor. exact P.
  - assert (K : forall i, kind_at is_binary_option i = true -> kind_at is_numeric_option i = true -> False) by (intros i; unfold kind_at; destruct (feature_at h i) as [f|]; [destruct (f_kind f)|]; discriminate).
    assert (forall l k : list nid, NoDup l -> NoDup k -> (forall x, In x l -> In x k -> False) -> NoDup (l ++ k)) as Ap.
    { clear. intros l k Nl Nk D. induction Nl as [|x l Nx Nl IH]; [exact Nk|]. cbn. constructor; [|apply IH; intros y A B; apply (D y); [right; exact A|exact B]]. rewrite in_app_iff. intros [A|A]; [contradiction|apply (D x); [left; reflexivity|exact A]]. }
    apply Ap; [apply NoDup_filter; exact Ni|apply NoDup_filter; exact Ni|]. intros x X Y. apply filter_In in X, Y. exact (K x (proj2 X) (proj2 Y)).
  - destruct (section_calls (section_stands sci step) "booleanConstraints" es3 s3 bs V3) as (l3 & G3 & Q3); [intros ->; inversion S3; reflexivity|exact S3|].
    destruct (section_calls (section_stands sci step) "nonBooleanConstraints" es4 s4 ns V4) as (l4 & G4 & Q4); [intros ->; inversion S4; reflexivity|exact S4|].
    destruct (section_calls (section_stands sci step) "mixedConstraints" es5 s5 xs V5) as (l5 & G5 & Q5); [intros ->; inversion S5; reflexivity|exact S5|].
    exists (List.concat ls1 :: List.concat ls2 :: l3 ++ l4 ++ l5). split; [|split].
    + cbn [elems]. constructor; [exists ls1; auto|]. constructor; [exists ls2; auto|]. repeat apply Forall2_app; assumption.
    + assert (X : forall p s, In (BEdge p s) (head_calls ++ List.concat (ls1 ++ ls2) ++ bs ++ ns ++ xs) -> parent_named h m s p).
      { intros p s I. rewrite !in_app_iff in I. destruct I as [I|[I|[I|[I|I]]]].
        - cbn in I. destruct I as [I|[I|[I|[]]]]; discriminate.
        - apply in_concat in I. destruct I as (l & L & I). destruct (forall2_right _ _ _ Ca l L) as (i & _ & f & _ & O). exact (oc_edges _ _ _ _ _ O p s I).
        - destruct (forall2_right _ _ _ C3 _ I) as (c & _ & e & _ & X). discriminate.
        - destruct (forall2_right _ _ _ C4 _ I) as (c & _ & e & _ & X). discriminate.
        - destruct (forall2_right _ _ _ C5 _ I) as (c & _ & e & _ & X). discriminate. }
      intros p q s Ip Iq. apply X in Ip, Iq. exact (proj2 (parent_names h m t R s q Iq) p Ip).
    + unfold head_calls. cbn [app List.concat]. rewrite !concat_app, Q3, Q4, Q5, <- app_assoc. unfold attr. cbn [attributes]. pose proof (wr_name h m W) as Tn. pose proof (wr_path h m W) as Tp. pose proof (wr_commit h m W) as Tc. unfold tidy in *.
      f_equal; [|f_equal; [|f_equal]].
      * transitivity (BName (trim (m_name m))); [rewrite Tn|]; reflexivity.
      * transitivity (BPath (trim (m_path m))); [rewrite Tp|]; reflexivity.
      * destruct (m_commit m) as [|c r]; [reflexivity|]. transitivity (BCommit (trim (c :: r))); [rewrite Tc|]; reflexivity.
Qed.
End Model.
