(** Cloning models. *)
From Coq Require Import List Arith Bool Ascii String Permutation Lia.
From Verif Require Import Text TextProofs ConstraintModel ConstraintSpec SourceRangeModel FeatureTreeModel FeatureTreeSpec FeatureTreeProofs FeatureOrderProofs
  FeatureTreeFinal FeatureTransactionModel FeatureEditSpec FeatureEditProofs FeatureOpsProofs FeatureRemoveProofs FeatureGroupProofs FeatureDataProofs
  FeatureHistoryProofs FeatureTransactionSpec FeatureTransactionFinal FeatureBuildSpec FeatureBuildProofs FeatureBuildFinal FeatureCloneSpec.
Import ListNotations.

Lemma feature_above_unique h i p : feature_above h i p -> forall q, feature_above h i q -> p = q.
Proof.
  induction 1 as [i c p cp C P Cp F|i c p cp q C P Cp F A IH]; intros r B; inversion B as [? c0 ? cp0 C0 P0 Cp0 F0|? c0 p0 cp0 ? C0 P0 Cp0 F0 A0]; subst;
    assert (c0 = c) as -> by congruence.
  - congruence.
  - assert (p0 = p) as -> by congruence. congruence.
  - assert (r = p) as -> by congruence. congruence.
  - assert (p0 = p) as -> by congruence. apply IH. exact A0.
Qed.

Lemma map_option_map {A B} (f : A -> option B) (g : A -> B) l : (forall a, In a l -> f a = Some (g a)) -> map_option f l = Some (map g l).
Proof.
  induction l as [|a l IH]; intros E; [reflexivity|]. cbn [map_option map]. rewrite E by (left; reflexivity). cbn [bind].
  rewrite IH by (intros b X; apply E; right; exact X). reflexivity.
Qed.

Lemma declares_app d a e b f : declares d a e -> declares e b f -> declares d (a ++ b) f.
Proof. induction 1; intros Y; cbn [app]; [exact Y| | | |]; constructor; auto. Qed.
Lemma declares_others d cs : (forall c, In c cs -> match c with BFeature _ | BRoot _ => False | _ => True end) -> declares d cs d.
Proof.
  induction cs as [|c cs IH]; intros O; [constructor|]. apply dec_other; [apply O; left; reflexivity|]. apply IH. intros x X. apply O. right. exact X.
Qed.

Lemma last_edge_only u s : forall cs def, (forall p, In (BEdge p s) cs -> p = u) -> (def = u \/ exists p, In (BEdge p s) cs) ->
  last_edge cs s def = u.
Proof.
  induction cs as [|c cs IH]; intros def O X.
  - cbn. destruct X as [X|(p & [])]. exact X.
  - assert (O' : forall p, In (BEdge p s) cs -> p = u) by (intros p Y; apply O; right; exact Y).
    destruct c as [f|t|p t|k p|k e|t|t|t]; cbn [last_edge];
      try (apply IH; [exact O'|]; destruct X as [X|(q & [X|X])]; [left; exact X|discriminate|right; eauto]).
    apply IH; [exact O'|]. destruct (text_eqb t s) eqn:E.
    + apply text_eqb_eq in E. subst t. left. apply O. left. reflexivity.
    + destruct X as [X|(q & [X|X])]; [left; exact X| |right; eauto]. injection X as _ ->.
      assert (text_eqb s s = true) by (apply text_eqb_eq; reflexivity). congruence.
Qed.

Section Clone.
Variable ord : list nid -> list nid.
Hypothesis ord_ok : is_order ord.
Variable map_order : list (text * nid) -> list (text * nid).
Hypothesis map_order_ok : forall l, Permutation (map_order l) l.
Variable (h : heap) (m : fmodel) (t : tree).
Hypothesis R : represents h m t.

Definition fd (i : nid) : feature := match feature_at h i with Some f => f | None => root_feature [] end.
Definition up (i : nid) : option text := match parent_feature h i with Some (Some p) => name_at h p | _ => None end.
Definition copied (f : feature) : feature :=
  match f_kind f with
  | FUnknown => new_feature FUnknown (f_name f) false [] []
  | FRoot => root_feature (f_name f)
  | FBinary => new_feature FBinary (f_name f) (f_optional f) (f_locations f) []
  | FNumeric v _ => new_feature (FNumeric v None) (f_name f) (f_optional f) (f_locations f) []
  end.
Definition make (f : feature) : bcall := match f_kind f with FRoot => BRoot (f_name f) | _ => BFeature (copied f) end.
Definition fcalls (e : text * nid) : list bcall :=
  make (fd (snd e)) :: match up (snd e) with Some s => [BEdge s (fst e)] | None => [] end.

Lemma entry_facts s i : In (s, i) (m_features m) ->
  feature_at h i = Some (fd i) /\ f_name (fd i) = s /\
  (i = rid t /\ f_kind (fd i) = FRoot /\ parent_feature h i = Some None \/
   i <> rid t /\ f_kind (fd i) <> FRoot /\ exists u p, parent_feature h i = Some (Some p) /\ In (u, p) (m_features m) /\ name_at h p = Some u).
Proof.
  intros X. assert (In (s, i) (named t)) as Y by (eapply Permutation_in; [apply (rep_features _ _ _ R)|exact X]).
  apply named_subtree in Y. destruct Y as (v & f & V & <- & Df & Nf). pose proof (rep_feature_at h m t v f R V Df) as Fa.
  assert (fd (rid v) = f) as Ef by (unfold fd; rewrite Fa; reflexivity). rewrite Ef. split; [exact Fa|]. split; [exact Nf|].
  destruct (Nat.eq_dec (rid v) (rid t)) as [E|N].
  - left. split; [exact E|]. rewrite E. split; [|apply parent_feature_root; apply (rep_holds _ _ _ R)].
    assert (v = t) as -> by (apply (subtree_unique t); [apply (rep_ids _ _ _ R)|exact V|constructor|exact E]).
    destruct (rep_top_data R) as (f0 & E0 & K0). congruence.
  - right. split; [exact N|]. split; [exact (rep_other_kind R v f V Df N)|].
    destruct (rep_owner h m t v R V) as (u & U & Fu & _ & P); [rewrite Df; reflexivity|exact N|].
    destruct (rdata u) as [g|k] eqn:Du; [|discriminate]. exists (f_name g), (rid u). split; [exact P|]. split.
    + eapply Permutation_in; [apply Permutation_sym; apply (rep_features _ _ _ R)|]. apply named_subtree. exists u, g. auto.
    + unfold name_at. rewrite (rep_feature_at h m t u g R U Du). reflexivity.
Qed.

Lemma entry_find s i : In (s, i) (m_features m) <-> get_feature m s = Some i.
Proof. unfold get_feature. symmetry. apply find_name_in. apply (rep_keys R). Qed.

Lemma clone_feature_calls e : In e (m_features m) -> clone_feature h (snd e) = Some (fcalls e).
Proof.
  destruct e as [s i]. intros X. destruct (entry_facts s i X) as (Fa & Nf & C). unfold clone_feature, fcalls. cbn [fst snd]. rewrite Fa. cbn [bind].
  unfold up. destruct C as [(E & K & P)|(N & K & u & p & P & Ip & Np)]; rewrite P; cbn [bind].
  - unfold make. rewrite K. reflexivity.
  - rewrite Np. cbn [bind]. unfold make, copied. rewrite Nf. destruct (f_kind (fd i)) eqn:Z; try reflexivity.
Qed.

Definition rreq (q : nid) : text * rkind :=
  match h_cells h q with
  | Some (Cell (NRelationship k) (Some p) _) => (match name_at h p with Some s => s | None => [] end, k)
  | _ => ([], ROr)
  end.

Lemma group_facts q : In q (m_relationships m) -> exists k p u e,
  h_cells h q = Some (Cell (NRelationship k) (Some p) e) /\ In (u, p) (m_features m) /\ name_at h p = Some u /\ rreq q = (u, k) /\
  clone_relationship h q = Some [BRelationship k u].
Proof.
  intros X. eapply Permutation_in in X; [|apply (rep_groups _ _ _ R)]. apply groups_subtree in X. destruct X as (v & k & V & <- & Dv).
  assert (rid v <> rid t) as N.
  { intros E. assert (v = t) as -> by (apply (subtree_unique t); [apply (rep_ids _ _ _ R)|exact V|constructor|exact E]).
    destruct (rep_top_data R) as (f0 & E0 & K0). congruence. }
  destruct (subtree_proper v t (rep_ids _ _ _ R) V N) as (u & U & Iu). pose proof (rep_kid R u v U Iu) as Cv. rewrite Dv in Cv.
  assert (exists g, rdata u = NFeature g) as (g & Dg).
  { assert (grouped u) as Gu by (eapply grouped_sub; [exact U|apply (rep_shape _ _ _ R)]). destruct u as [n d us]. cbn [rdata kids] in *.
    destruct d as [g|k']; [eauto|]. exfalso. inversion Gu as [|? ? ? Fu _]; subst. rewrite Forall_forall in Fu. specialize (Fu v Iu). rewrite Dv in Fu. discriminate. }
  pose proof (rep_feature_at h m t u g R U Dg) as Fa.
  assert (name_at h (rid u) = Some (f_name g)) as Na by (unfold name_at; rewrite Fa; reflexivity).
  exists k, (rid u), (f_name g). eexists. split; [exact Cv|]. split.
  { eapply Permutation_in; [apply Permutation_sym; apply (rep_features _ _ _ R)|]. apply named_subtree. exists u, g. auto. }
  split; [exact Na|]. split; [unfold rreq; rewrite Cv, Na; reflexivity|].
  unfold clone_relationship. rewrite Cv. cbn [bind n_data n_parent]. destruct (rep_cell R u U) as (q & Cu). rewrite Cu, Dg. reflexivity.
Qed.

Definition own (r : cref) : cref := Own (match cref_name h r with Some s => s | None => [] end).
Lemma clone_expr_own e : (forall r, In r (leaves e) -> exists s, cref_name h r = Some s) -> clone_expr h e = Some (cmap own e).
Proof.
  induction e as [o l IHl r IHr|o e IH|n|x]; cbn [leaves clone_expr cmap]; intros O.
  - rewrite IHl, IHr by (intros y Y; apply O; apply in_or_app; auto). reflexivity.
  - rewrite IH by exact O. reflexivity.
  - reflexivity.
  - destruct (O x (or_introl eq_refl)) as (s & E). unfold own. rewrite E. reflexivity.
Qed.

Hypothesis conn : all_connected h m.
Hypothesis free : root_name_free m.

Let M := map_order (m_features m).
Definition ccall (k : ckind) (c : mconstraint) : bcall := BConstraint k (cmap own (c_expr c)).
Definition the_calls : list bcall :=
  [BName (m_name m); BCommit (m_commit m); BPath (m_path m)] ++ flat_map fcalls M ++
  map (fun q => BRelationship (snd (rreq q)) (fst (rreq q))) (m_relationships m) ++
  map (ccall KBoolean) (m_boolean m) ++ map (ccall KNonBoolean) (m_nonboolean m) ++
  map (fun x => ccall (KMixed (x_req x) (x_kind x)) (x_con x)) (m_mixed m).

Lemma in_M e : In e M <-> In e (m_features m).
Proof. split; apply Permutation_in; [|apply Permutation_sym]; apply map_order_ok. Qed.

Lemma clone_calls_are : clone_calls map_order h m = Some the_calls.
Proof.
  unfold clone_calls. fold M. rewrite (map_option_map _ fcalls) by (intros e X; apply clone_feature_calls; apply in_M; exact X). cbn [bind].
  rewrite (map_option_map _ (fun q => [BRelationship (snd (rreq q)) (fst (rreq q))])).
  2:{ intros q X. destruct (group_facts q X) as (k & p & u & e & _ & _ & _ & E & ->). rewrite E. reflexivity. }
  cbn [bind].
  assert (CC : forall k c, In (c_expr c) (map c_expr (m_boolean m ++ m_nonboolean m ++ map x_con (m_mixed m))) -> clone_constraint h k c = Some (ccall k c)).
  { intros k c X. unfold clone_constraint. rewrite clone_expr_own; [reflexivity|]. intros r Ir. destruct (conn _ X r Ir) as (s & i & E & _). eauto. }
  rewrite (map_option_map _ (ccall KBoolean)) by (intros c X; apply CC; apply in_map; apply in_or_app; left; exact X). cbn [bind].
  rewrite (map_option_map _ (ccall KNonBoolean)) by (intros c X; apply CC; apply in_map; apply in_or_app; right; apply in_or_app; left; exact X). cbn [bind].
  rewrite (map_option_map _ (fun x => ccall (KMixed (x_req x) (x_kind x)) (x_con x)))
    by (intros c X; apply CC; apply in_map; apply in_or_app; right; apply in_or_app; right; apply in_map; exact X). cbn [bind].
  unfold the_calls. rewrite flat_map_concat_map. do 4 f_equal.
  generalize (m_relationships m). induction l as [|q l IH]; [reflexivity|]. cbn [map List.concat app]. f_equal. exact IH.
Qed.

Definition root_name : text := f_name (fd (rid t)).
Definition plain (e : text * nid) : bool := negb (is_root_kind (fd (snd e))).
Definition the_decl : decl := (root_name, map (fun e => copied (fd (snd e))) (filter plain M)).

Lemma root_entry : In (root_name, rid t) (m_features m).
Proof.
  destruct (rep_top_data R) as (f & Ef & Kf). eapply Permutation_in; [apply Permutation_sym; apply (rep_features _ _ _ R)|].
  apply named_subtree. exists t, f. split; [constructor|]. split; [reflexivity|]. split; [exact Ef|].
  unfold root_name, fd. rewrite (rep_feature_at h m t t f R (sub_refl _) Ef). reflexivity.
Qed.
Lemma plain_spec s i : In (s, i) (m_features m) -> plain (s, i) = negb (Nat.eqb i (rid t)).
Proof.
  intros X. destruct (entry_facts s i X) as (_ & _ & C). unfold plain, is_root_kind. cbn [snd]. destruct C as [(E & K & _)|(N & K & _)].
  - rewrite E, <- E, K, E, Nat.eqb_refl. reflexivity.
  - destruct (Nat.eqb_spec i (rid t)); [contradiction|]. destruct (f_kind (fd i)) eqn:Z; try reflexivity. congruence.
Qed.
Lemma copied_name f : f_name (copied f) = f_name f.
Proof. unfold copied. destruct (f_kind f); reflexivity. Qed.

Lemma taken_decl s : taken the_decl s <-> exists i, In (s, i) (m_features m).
Proof.
  unfold taken, the_decl. cbn [fst snd]. rewrite map_map. split.
  - intros [->|X]; [exists (rid t); apply root_entry|]. apply in_map_iff in X. destruct X as ([u i] & E & X). apply filter_In in X. destruct X as [X _].
    apply in_M in X. rewrite copied_name in E. destruct (entry_facts u i X) as (_ & Nf & _). cbn [snd] in E. exists i. congruence.
  - intros (i & X). destruct (Nat.eq_dec i (rid t)) as [->|N].
    + left. destruct (entry_facts s _ X) as (_ & Nf & _). symmetry. exact Nf.
    + right. apply in_map_iff. exists (s, i). rewrite copied_name. split; [apply (entry_facts s i X)|]. apply filter_In. split; [apply in_M; exact X|].
      rewrite (plain_spec s i X). destruct (Nat.eqb_spec i (rid t)); [contradiction|reflexivity].
Qed.

Lemma declares_list : forall l rc fs,
  (forall e, In e l -> In e (m_features m)) -> NoDup (map fst l) ->
  (forall e, In e l -> plain e = true -> ~ taken (rc, fs) (fst e)) ->
  (forall e, In e l -> plain e = false -> fst e = rc \/ ~ taken (rc, fs) (fst e)) ->
  exists rc', declares (rc, fs) (flat_map fcalls l) (rc', fs ++ map (fun e => copied (fd (snd e))) (filter plain l)) /\
    ((exists e, In e l /\ plain e = false) -> rc' = root_name).
Proof.
  induction l as [|[s i] l IH]; intros rc fs Inc D P Q.
  - exists rc. cbn. rewrite app_nil_r. split; [constructor|]. intros (e & [] & _).
  - pose proof (Inc _ (or_introl eq_refl)) as X. destruct (entry_facts s i X) as (_ & Nf & C). cbn [map fst] in D. apply NoDup_cons_iff in D.
    destruct D as [Ns D]. assert (Inc' : forall e, In e l -> In e (m_features m)) by (intros e Y; apply Inc; right; exact Y).
    assert (Nsl : forall e, In e l -> fst e <> s) by (intros e Y E; apply Ns; rewrite <- E; apply in_map; exact Y).
    assert (EDGE : forall d ds, declares d (flat_map fcalls l) ds ->
      declares d (match up i with Some u => [BEdge u s] | None => [] end ++ flat_map fcalls l) ds).
    { intros d ds Y. destruct (up i); [apply dec_other; [exact Logic.I|exact Y]|exact Y]. }
    cbn [flat_map filter]. unfold fcalls at 1. cbn [fst snd]. cbn [app]. pose proof (plain_spec s i X) as Pl. destruct C as [(E & K & _)|(N & K & _)].
    + rewrite E, Nat.eqb_refl, <- E in Pl. cbn in Pl. rewrite Pl. unfold make. rewrite K, Nf.
      assert (s = root_name) as Er by (rewrite <- Nf, E; reflexivity).
      assert (NoRoot : forall e, In e l -> plain e = true).
      { intros [u j] Y. rewrite (plain_spec u j (Inc' _ Y)). destruct (Nat.eqb_spec j (rid t)) as [->|]; [|reflexivity]. exfalso. apply (Nsl _ Y).
        cbn. destruct (entry_facts u _ (Inc' _ Y)) as (_ & Nu & _). rewrite <- Nu, <- Nf, E. reflexivity. }
      destruct (IH s fs Inc' D) as (rc' & Dl & Rc).
      * intros e Y Pe [Z|Z]; [exact (Nsl e Y Z)|]. apply (P e (or_intror Y) Pe). right. exact Z.
      * intros e Y Pe. rewrite (NoRoot e Y) in Pe. discriminate.
      * assert (rc' = root_name) as ->.
        { destruct (Q _ (or_introl eq_refl) Pl) as [Z|Z].
          - clear -Dl NoRoot Er. assert (forall l rc fs rc' gs, declares (rc, fs) (flat_map fcalls l) (rc', gs) -> (forall e, In e l -> plain e = true) -> rc' = rc) as X.
            { clear. induction l as [|e l IH]; intros rc fs rc' gs Dl NR; [inversion Dl; reflexivity|]. cbn [flat_map] in Dl. unfold fcalls at 1 in Dl.
              assert (plain e = true) as Pe by (apply NR; left; reflexivity). unfold plain, is_root_kind in Pe.
              assert (exists f, make (fd (snd e)) = BFeature f) as (f & Ef) by (unfold make; destruct (f_kind (fd (snd e))); try discriminate; eauto).
              rewrite Ef in Dl. cbn [app] in Dl. inversion Dl as [|? ? ? ? ? _ D1| | |? ? ? ? C1 _]; subst; [|contradiction].
              destruct (up (snd e)); cbn [app] in D1.
              - inversion D1; subst. eapply IH; [eassumption|]. intros x X. apply NR. right. exact X.
              - eapply IH; [eassumption|]. intros x X. apply NR. right. exact X. }
            rewrite (X _ _ _ _ _ Dl NoRoot). exact Er.
          - clear -Dl NoRoot Er. assert (forall l rc fs rc' gs, declares (rc, fs) (flat_map fcalls l) (rc', gs) -> (forall e, In e l -> plain e = true) -> rc' = rc) as X.
            { clear. induction l as [|e l IH]; intros rc fs rc' gs Dl NR; [inversion Dl; reflexivity|]. cbn [flat_map] in Dl. unfold fcalls at 1 in Dl.
              assert (plain e = true) as Pe by (apply NR; left; reflexivity). unfold plain, is_root_kind in Pe.
              assert (exists f, make (fd (snd e)) = BFeature f) as (f & Ef) by (unfold make; destruct (f_kind (fd (snd e))); try discriminate; eauto).
              rewrite Ef in Dl. cbn [app] in Dl. inversion Dl as [|? ? ? ? ? _ D1| | |? ? ? ? C1 _]; subst; [|contradiction].
              destruct (up (snd e)); cbn [app] in D1.
              - inversion D1; subst. eapply IH; [eassumption|]. intros x X. apply NR. right. exact X.
              - eapply IH; [eassumption|]. intros x X. apply NR. right. exact X. }
            rewrite (X _ _ _ _ _ Dl NoRoot). exact Er. }
        exists root_name. split; [|reflexivity]. destruct (Q _ (or_introl eq_refl) Pl) as [Z|Z]; cbn [fst] in Z.
        -- subst rc. apply dec_same. apply EDGE. exact Dl.
        -- apply dec_root; [exact Z|]. apply EDGE. exact Dl.
    + assert (plain (s, i) = true) as Pl' by (rewrite Pl; destruct (Nat.eqb_spec i (rid t)); [contradiction|reflexivity]). rewrite Pl'.
      assert (make (fd i) = BFeature (copied (fd i))) as -> by (unfold make; destruct (f_kind (fd i)) eqn:Z; try reflexivity; congruence).
      destruct (IH rc (fs ++ [copied (fd i)]) Inc' D) as (rc' & Dl & Rc).
      * intros e Y Pe Z. destruct Z as [Z|Z].
        -- apply (P e (or_intror Y) Pe). left. exact Z.
        -- cbn [snd] in Z. rewrite map_app in Z. apply in_app_or in Z. destruct Z as [Z|[Z|[]]].
           ++ apply (P e (or_intror Y) Pe). right. exact Z.
           ++ rewrite copied_name, Nf in Z. apply (Nsl e Y). symmetry. exact Z.
      * intros e Y Pe. destruct (Q e (or_intror Y) Pe) as [Z|Z]; [left; exact Z|right]. intros [W|W]; [apply Z; left; exact W|].
        cbn [snd] in W. rewrite map_app in W. apply in_app_or in W. destruct W as [W|[W|[]]].
        -- apply Z. right. exact W.
        -- rewrite copied_name, Nf in W. apply (Nsl e Y). symmetry. exact W.
      * exists rc'. split.
        -- apply dec_feature.
           ++ rewrite copied_name, Nf. apply (P (s, i) (or_introl eq_refl) Pl').
           ++ apply EDGE. cbn [map snd]. rewrite <- app_assoc in Dl. exact Dl.
        -- intros (e & [<-|Y] & Pe); [congruence|]. apply Rc. eauto.
Qed.

Lemma the_calls_edges p s : In (BEdge p s) the_calls <-> exists i, In (s, i) (m_features m) /\ up i = Some p.
Proof.
  unfold the_calls. rewrite !in_app_iff, in_flat_map. split.
  - intros [X|[X|[X|[X|[X|X]]]]].
    + destruct X as [X|[X|[X|[]]]]; discriminate.
    + destruct X as ([u i] & Y & X). apply in_M in Y. unfold fcalls in X. cbn [fst snd] in X. destruct X as [X|X].
      * unfold make in X. destruct (f_kind (fd i)); discriminate.
      * destruct (up i) as [q|] eqn:Up; [|destruct X]. destruct X as [X|[]]. injection X as <- <-. eauto.
    + apply in_map_iff in X. destruct X as (q & X & _). discriminate.
    + apply in_map_iff in X. destruct X as (q & X & _). discriminate.
    + apply in_map_iff in X. destruct X as (q & X & _). discriminate.
    + apply in_map_iff in X. destruct X as (q & X & _). discriminate.
  - intros (i & X & U). right. left. exists (s, i). split; [apply in_M; exact X|]. unfold fcalls. cbn [fst snd]. rewrite U. right. left. reflexivity.
Qed.

Lemma entry_same s i j : In (s, i) (m_features m) -> In (s, j) (m_features m) -> i = j.
Proof. intros A B. apply entry_find in A. apply entry_find in B. congruence. Qed.

Lemma the_last_edge s i def u : In (s, i) (m_features m) -> up i = Some u -> last_edge the_calls s def = u.
Proof.
  intros X U. apply last_edge_only.
  - intros p Y. apply the_calls_edges in Y. destruct Y as (j & Y & V). rewrite (entry_same s i j X Y) in U. congruence.
  - right. exists u. apply the_calls_edges. eauto.
Qed.

Lemma requests_the_calls : requests the_calls = map rreq (m_relationships m).
Proof.
  unfold the_calls, requests. rewrite !flat_map_app. cbn [flat_map app].
  assert (forall l, flat_map (fun c => match c with BRelationship k p => [(p, k)] | _ => [] end) (flat_map fcalls l) = []) as ->.
  { induction l as [|e l IH]; [reflexivity|]. cbn [flat_map]. rewrite flat_map_app, IH, app_nil_r. unfold fcalls. cbn [flat_map].
    unfold make. destruct (f_kind (fd (snd e))); cbn; destruct (up (snd e)); reflexivity. }
  cbn [app].
  assert (forall A (f : A -> bcall) l, (forall a, match f a with BConstraint _ _ => True | _ => False end) ->
    flat_map (fun c => match c with BRelationship k p => [(p, k)] | _ => [] end) (map f l) = []) as NC.
  { intros A f l C. induction l as [|a l IH]; [reflexivity|]. cbn [map flat_map]. rewrite IH. specialize (C a). destruct (f a); try contradiction. reflexivity. }
  rewrite (NC _ (ccall KBoolean)), (NC _ (ccall KNonBoolean)), (NC _ (fun x => ccall (KMixed (x_req x) (x_kind x)) (x_con x))) by (intros; exact Logic.I). rewrite !app_nil_r.
  induction (m_relationships m) as [|q l IH]; [reflexivity|]. cbn [map flat_map app]. rewrite IH. f_equal. symmetry. apply surjective_pairing.
Qed.

Definition conof (k : ckind) (c : mconstraint) : ckind * cexpr cref := (k, cmap own (c_expr c)).
Lemma constraints_the_calls : constraints_of the_calls =
  map (conof KBoolean) (m_boolean m) ++ map (conof KNonBoolean) (m_nonboolean m) ++
  map (fun x => conof (KMixed (x_req x) (x_kind x)) (x_con x)) (m_mixed m).
Proof.
  unfold the_calls, constraints_of. rewrite !flat_map_app. cbn [flat_map app].
  assert (forall l, flat_map (fun c => match c with BConstraint k e => [(k, e)] | _ => [] end) (flat_map fcalls l) = []) as ->.
  { induction l as [|e l IH]; [reflexivity|]. cbn [flat_map]. rewrite flat_map_app, IH, app_nil_r. unfold fcalls. cbn [flat_map].
    unfold make. destruct (f_kind (fd (snd e))); cbn; destruct (up (snd e)); reflexivity. }
  cbn [app].
  assert (forall l, flat_map (fun c => match c with BConstraint k e => [(k, e)] | _ => [] end)
    (map (fun q => BRelationship (snd (rreq q)) (fst (rreq q))) l) = []) as ->.
  { induction l as [|q l IH]; [reflexivity|]. exact IH. }
  cbn [app]. assert (forall A (g : A -> ckind) (f : A -> mconstraint) l,
    flat_map (fun c => match c with BConstraint k e => [(k, e)] | _ => [] end) (map (fun a => ccall (g a) (f a)) l) = map (fun a => conof (g a) (f a)) l) as CC.
  { intros A g f l. induction l as [|a l IH]; [reflexivity|]. cbn [map flat_map]. rewrite IH. reflexivity. }
  f_equal; [apply (CC _ (fun _ => KBoolean) (fun c => c))|]. f_equal; [apply (CC _ (fun _ => KNonBoolean) (fun c => c))|].
  apply (CC _ (fun x => KMixed (x_req x) (x_kind x)) x_con).
Qed.

Lemma height_near s ts n d : In s (near ts) -> height s < height (Node n d ts).
Proof.
  intros X. unfold near in X. apply in_flat_map in X. destruct X as (u & U & X). pose proof (height_kid n d ts u U).
  assert (height s <= height u); [|lia]. clear -X. induction u as [n d ts IH] using tree_ind'. cbn [tops] in X.
  destruct (is_feature d); [destruct X as [<-|[]]; lia|]. apply in_flat_map in X. destruct X as (v & V & X). rewrite Forall_forall in IH.
  specialize (IH v V X). pose proof (height_kid n d ts v V). lia.
Qed.

Lemma leads_all : forall k s f, height t - height s <= k -> subtree s t -> rdata s = NFeature f ->
  leads (fun x => last_edge the_calls x root_name) root_name (f_name f).
Proof.
  induction k as [|k IH]; intros s f Hk S1 Df.
  - destruct (Nat.eq_dec (rid s) (rid t)) as [E|N].
    + assert (s = t) as -> by (apply (subtree_unique t); [apply (rep_ids _ _ _ R)|exact S1|constructor|exact E]).
      assert (f_name f = root_name) as -> by (unfold root_name, fd; rewrite (rep_feature_at h m t t f R S1 Df); reflexivity). constructor.
    + exfalso. destruct (subtree_proper s t (rep_ids _ _ _ R) S1 N) as (u & U & Iu). pose proof (subtree_height u t U). destruct u as [n d ts].
      pose proof (height_kid n d ts s Iu). lia.
  - destruct (Nat.eq_dec (rid s) (rid t)) as [E|N].
    + assert (s = t) as -> by (apply (subtree_unique t); [apply (rep_ids _ _ _ R)|exact S1|constructor|exact E]).
      assert (f_name f = root_name) as -> by (unfold root_name, fd; rewrite (rep_feature_at h m t t f R S1 Df); reflexivity). constructor.
    + destruct (rep_owner h m t s R S1) as (u & U & Fu & Iu & P); [rewrite Df; reflexivity|exact N|].
      destruct (rdata u) as [g|] eqn:Du; [|discriminate]. apply leads_up.
      rewrite (the_last_edge (f_name f) (rid s) root_name (f_name g)).
      * apply (IH u g); [|exact U|exact Du]. destruct u as [n d ts]. pose proof (height_near s ts n d Iu). pose proof (subtree_height _ _ U).
        pose proof (subtree_height _ _ S1). lia.
      * eapply Permutation_in; [apply Permutation_sym; apply (rep_features _ _ _ R)|]. apply named_subtree. exists s, f. auto.
      * unfold up. rewrite P. unfold name_at. rewrite (rep_feature_at h m t u g R U Du). reflexivity.
Qed.

Lemma the_calls_describe : describes the_calls the_decl.
Proof.
  assert (ND : NoDup (map fst M)).
  { eapply Permutation_NoDup; [apply Permutation_map; apply Permutation_sym; apply map_order_ok|]. apply (rep_keys R). }
  assert (NPL : forall s i, In (s, i) (m_features m) -> plain (s, i) = false -> i = rid t).
  { intros s i X P. rewrite (plain_spec s i X) in P. destruct (Nat.eqb_spec i (rid t)); [assumption|discriminate]. }
  constructor.
  - unfold the_calls. apply (declares_app _ [BName (m_name m); BCommit (m_commit m); BPath (m_path m)] (default_root, [])).
    { apply declares_others. intros c [<-|[<-|[<-|[]]]]; exact Logic.I. }
    destruct (declares_list M default_root []) as (rc & Dl & Rc).
    + intros e. apply in_M.
    + exact ND.
    + intros [s i] X P [Z|[]]. cbn [fst] in Z. subst s. apply in_M in X. pose proof (free i (proj1 (entry_find _ _) X)) as Ri. rewrite (rep_root _ _ _ R) in Ri. injection Ri as <-.
      rewrite (plain_spec _ _ X), Nat.eqb_refl in P. discriminate.
    + intros [s i] X P. cbn [fst]. destruct (text_eqb s default_root) eqn:E; [left; apply text_eqb_eq; exact E|right]. intros [Z|[]]. cbn [fst] in Z. subst s.
      assert (text_eqb default_root default_root = true) by (apply text_eqb_eq; reflexivity). congruence.
    + assert (rc = root_name) as ->.
      { apply Rc. exists (root_name, rid t). split; [apply in_M; apply root_entry|]. rewrite (plain_spec _ _ root_entry), Nat.eqb_refl. reflexivity. }
      apply (declares_app _ _ _ _ _ Dl). apply declares_others. intros c X. rewrite !in_app_iff in X.
      destruct X as [X|[X|[X|X]]]; apply in_map_iff in X; destruct X as (y & <- & _); exact Logic.I.
  - intros c X. destruct c as [f|s|p s|k p|k e|s|s|s]; try exact Logic.I. unfold the_calls in X. rewrite !in_app_iff, in_flat_map in X.
    destruct X as [X|[X|[X|[X|[X|X]]]]]; try (apply in_map_iff in X; destruct X as (y & X & _); discriminate).
    + destruct X as [X|[X|[X|[]]]]; discriminate.
    + destruct X as (e & _ & X). unfold fcalls in X. destruct X as [X|X]; [|destruct (up (snd e)); [destruct X as [X|[]]; discriminate|destruct X]].
      cbn [ordinary]. unfold make, copied in X. destruct (f_kind (fd (snd e))); try discriminate; injection X as <-; discriminate.
  - intros c X. destruct c as [f|s|p s|k p|k e|s|s|s]; try exact Logic.I. apply the_calls_edges in X. destruct X as (i & X & U). cbn [edge_ok].
    destruct (entry_facts s i X) as (Fa & Nf & C). unfold up in U. destruct C as [(_ & _ & P)|(N & K & u & q & P & Iq & Nq)]; rewrite P in U; [discriminate|].
    assert (u = p) as -> by congruence. split; [apply taken_decl; eauto|]. split; [apply taken_decl; eauto|]. intros <-.
    assert (q = i) as -> by (eapply entry_same; eassumption).
    assert (In (p, i) (named t)) as Y by (eapply Permutation_in; [apply (rep_features _ _ _ R)|exact X]). apply named_subtree in Y.
    destruct Y as (v & f & V & <- & Df & _). destruct (rep_owner h m t v R V) as (w & W & Fw & Iw & P'); [rewrite Df; reflexivity|exact N|].
    rewrite P in P'. injection P' as E. assert (w = v) as -> by (apply (subtree_unique t); [apply (rep_ids _ _ _ R)|exact W|exact V|congruence]).
    destruct v as [n d ts]. pose proof (height_near _ ts n d Iw). lia.
  - intros p s X E. apply the_calls_edges in X. destruct X as (i & X & U). cbn [fst the_decl] in E. subst s.
    assert (i = rid t) as -> by (eapply entry_same; [exact X|apply root_entry]). unfold up in U. rewrite (parent_feature_root h t (rep_holds _ _ _ R)) in U. discriminate.
  - intros f X. cbn [snd fst the_decl] in *. apply in_map_iff in X. destruct X as ([s i] & <- & X). apply filter_In in X. destruct X as [X _]. apply in_M in X.
    rewrite copied_name. cbn [snd]. destruct (entry_facts s i X) as (_ & Nf & _). rewrite Nf.
    assert (In (s, i) (named t)) as Y by (eapply Permutation_in; [apply (rep_features _ _ _ R)|exact X]). apply named_subtree in Y.
    destruct Y as (v & g & V & _ & Dg & <-). apply (leads_all (height t) v); [lia|exact V|exact Dg].
  - assert (CM : forall c, In (c_expr c) (map c_expr (m_boolean m ++ m_nonboolean m ++ map x_con (m_mixed m))) -> mentions_declared the_decl (cmap own (c_expr c))).
    { intros c X r Ir. rewrite leaves_cmap in Ir. apply in_map_iff in Ir. destruct Ir as (r0 & <- & Ir). destruct (conn _ X r0 Ir) as (s & i & E & G).
      exists s. unfold own. rewrite E. split; [reflexivity|]. apply taken_decl. exists i. apply entry_find. exact G. }
    intros c X. unfold the_calls in X. rewrite !in_app_iff, in_flat_map in X. destruct X as [X|[X|[X|[X|[X|X]]]]].
    + destruct X as [<-|[<-|[<-|[]]]]; exact Logic.I.
    + destruct X as (e & _ & X). unfold fcalls in X. destruct X as [<-|X].
      * unfold make. destruct (f_kind (fd (snd e))); exact Logic.I.
      * destruct (up (snd e)); [destruct X as [<-|[]]; exact Logic.I|destruct X].
    + apply in_map_iff in X. destruct X as (q & <- & Iq). destruct (group_facts q Iq) as (k & p & u & e & _ & Ip & _ & E & _). rewrite E. cbn [fst snd relation_ok].
      apply taken_decl. eauto.
    + apply in_map_iff in X. destruct X as (c0 & <- & Ic). cbn [relation_ok ccall]. apply CM. apply in_map. apply in_or_app. left. exact Ic.
    + apply in_map_iff in X. destruct X as (c0 & <- & Ic). cbn [relation_ok ccall]. apply CM. apply in_map. apply in_or_app. right. apply in_or_app. left. exact Ic.
    + apply in_map_iff in X. destruct X as (x0 & <- & Ix). cbn [relation_ok ccall]. apply CM. apply in_map. apply in_or_app. right. apply in_or_app. right. apply in_map. exact Ix.
  - rewrite requests_the_calls, map_map.
    assert (NoDup (m_relationships m)) as Dr.
    { eapply Permutation_NoDup; [apply Permutation_sym; apply (rep_groups _ _ _ R)|]. pose proof (rep_ids _ _ _ R) as D.
      eapply Permutation_NoDup in D; [|apply ids_named_groups]. apply nodup_app in D. tauto. }
    assert (INJ : forall a b, In a (m_relationships m) -> In b (m_relationships m) -> fst (rreq a) = fst (rreq b) -> a = b).
    { intros a b Ia Ib E. destruct (group_facts a Ia) as (ka & pa & ua & ea & Ca & Ipa & _ & Ea & _).
      destruct (group_facts b Ib) as (kb & pb & ub & eb & Cb & Ipb & _ & Eb & _). rewrite Ea, Eb in E. cbn [fst] in E. subst ub.
      assert (pb = pa) as -> by (eapply entry_same; eassumption).
      assert (SB : forall q, In q (m_relationships m) -> exists v kv, subtree v t /\ rid v = q /\ rdata v = NRelationship kv).
      { intros q X. eapply Permutation_in in X; [|apply (rep_groups _ _ _ R)]. apply groups_subtree in X. exact X. }
      destruct (SB a Ia) as (va & xa & Va & Ra & Da). destruct (SB b Ib) as (vb & xb & Vb & Rb & Db).
      assert (KID : forall v, subtree v t -> forall k p e, h_cells h (rid v) = Some (Cell (NRelationship k) (Some p) e) -> exists w, subtree w t /\ In v (kids w) /\ rid w = p).
      { intros v V k p e C. destruct (Nat.eq_dec (rid v) (rid t)) as [E|N]; [rewrite E, (rep_top R) in C; discriminate|].
        destruct (subtree_proper v t (rep_ids _ _ _ R) V N) as (w & W & Iw). exists w. split; [exact W|]. split; [exact Iw|]. rewrite (rep_kid R w v W Iw) in C. congruence. }
      rewrite <- Ra in Ca. rewrite <- Rb in Cb. destruct (KID va Va _ _ _ Ca) as (wa & Wa & Iwa & Ewa). destruct (KID vb Vb _ _ _ Cb) as (wb & Wb & Iwb & Ewb).
      assert (wa = wb) as -> by (apply (subtree_unique t); [apply (rep_ids _ _ _ R)|exact Wa|exact Wb|congruence]).
      assert (grouped wb) as Gw by (eapply grouped_sub; [exact Wb|apply (rep_shape _ _ _ R)]).
      assert (In va (own_groups (kids wb))) as Oa by (apply filter_In; split; [exact Iwa|rewrite Da; reflexivity]).
      assert (In vb (own_groups (kids wb))) as Ob by (apply filter_In; split; [exact Iwb|rewrite Db; reflexivity]).
      inversion Gw as [n f ts L _|n k ts F _]; subst wb; cbn [kids] in *.
      - destruct (own_groups ts) as [|x [|y l]]; [destruct Oa| |cbn in L; lia]. destruct Oa as [Oa|[]], Ob as [Ob|[]]. congruence.
      - rewrite Forall_forall in F. specialize (F va Iwa). rewrite Da in F. discriminate. }
    clear -Dr INJ. induction (m_relationships m) as [|q l IH]; [constructor|]. apply NoDup_cons_iff in Dr. destruct Dr as [Nq Dr]. cbn [map]. constructor.
    + intros X. apply in_map_iff in X. destruct X as (q' & E & Iq). apply Nq. rewrite (INJ q q'); [exact Iq|left; reflexivity|right; exact Iq|symmetry; exact E].
    + apply IH; [exact Dr|]. intros a b Ia Ib. apply INJ; right; assumption.
Qed.

Lemma request_for_in rs s k : request_for rs s = Some k -> In (s, k) rs.
Proof.
  induction rs as [|[p k'] rs IH]; cbn [request_for]; [discriminate|]. destruct (text_eqb p s) eqn:E; [|right; apply IH; assumption].
  intros X. apply text_eqb_eq in E. left. congruence.
Qed.
Lemma request_for_none rs s k : request_for rs s = None -> ~ In (s, k) rs.
Proof.
  induction rs as [|[p k'] rs IH]; cbn [request_for]; [intros _ []|]. destruct (text_eqb p s) eqn:E; [discriminate|].
  intros X [Y|Y]; [|exact (IH X Y)]. injection Y as -> _. assert (text_eqb s s = true) by (apply text_eqb_eq; reflexivity). congruence.
Qed.

Lemma cmap_some_inj {A B} (f : A -> option B) (x : cexpr A) (g : A -> B) : (forall a, In a (leaves x) -> f a = Some (g a)) -> cmap f x = cmap Some (cmap g x).
Proof. intros E. rewrite cmap_cmap. apply cmap_ext_in. exact E. Qed.

Lemma model_cloned : exists h' m', clone_model ord map_order h m = Some (h', m') /\ cloned h m h' m' /\ heap_ok h'.
Proof.
  destruct (built ord ord_ok h the_calls the_decl (rep_ok _ _ _ R) the_calls_describe) as (h' & m' & E & A & K).
  exists h', m'. split; [unfold clone_model; rewrite clone_calls_are; cbn [bind]; rewrite E; reflexivity|]. split; [|exact K].
  destruct A as [A1 AR A2 A3 A4 A5 A6 A7 A8 A9 A10 A11 A12 A13].
  assert (ATT : last_name the_calls (T "FeatureModel") = m_name m /\ last_commit the_calls [] = m_commit m /\ last_path the_calls [] = m_path m).
  { assert (REST : forall (F : text -> bcall -> text) l d, (forall c, In c l -> match c with BName _ | BCommit _ | BPath _ => False | _ => True end) ->
      (forall c x, match c with BName _ | BCommit _ | BPath _ => True | _ => F x c = x end) -> fold_left F l d = d).
    { intros F l. induction l as [|c l IH]; intros d N P; [reflexivity|]. cbn [fold_left]. pose proof (N c (or_introl eq_refl)) as N1. pose proof (P c d) as P1.
      assert (F d c = d) as -> by (destruct c; tauto). apply IH; [intros x X; apply N; right; exact X|exact P]. }
    assert (NA : forall c, In c (flat_map fcalls M ++ map (fun q => BRelationship (snd (rreq q)) (fst (rreq q))) (m_relationships m) ++
      map (ccall KBoolean) (m_boolean m) ++ map (ccall KNonBoolean) (m_nonboolean m) ++ map (fun x => ccall (KMixed (x_req x) (x_kind x)) (x_con x)) (m_mixed m)) ->
      match c with BName _ | BCommit _ | BPath _ => False | _ => True end).
    { intros c X. rewrite !in_app_iff, in_flat_map in X. destruct X as [X|[X|[X|[X|X]]]]; try (apply in_map_iff in X; destruct X as (y & <- & _); exact Logic.I).
      destruct X as (e & _ & X). unfold fcalls in X. destruct X as [<-|X].
      - unfold make. destruct (f_kind (fd (snd e))); exact Logic.I.
      - destruct (up (snd e)); [destruct X as [<-|[]]; exact Logic.I|destruct X]. }
    unfold last_name, last_commit, last_path, the_calls. cbn [app fold_left].
    repeat split; apply REST; try (intros; apply NA; assumption); (intros [] ?; cbn; try exact Logic.I; reflexivity). }
  destruct ATT as (T1 & T2 & T3).
  assert (DATA : forall s i, In (s, i) (m_features m) -> i <> rid t -> In (copied (fd i)) (snd the_decl) /\ f_name (copied (fd i)) = s).
  { intros s i X N. split; [|rewrite copied_name; apply (entry_facts s i X)]. cbn [snd the_decl]. apply in_map_iff. exists (s, i). split; [reflexivity|].
    apply filter_In. split; [apply in_M; exact X|]. rewrite (plain_spec s i X). destruct (Nat.eqb_spec i (rid t)); [contradiction|reflexivity]. }
  destruct A7 as (r' & f' & Er' & Gr' & Fr' & Sr').
  assert (GET : forall s i, In (s, i) (m_features m) -> exists i', get_feature m' s = Some i').
  { intros s i X. destruct (Nat.eq_dec i (rid t)) as [->|N].
    - destruct (entry_facts s _ X) as (_ & Nf & _). exists r'. rewrite <- Nf. exact Gr'.
    - destruct (DATA s i X N) as (D1 & D2). destruct (A8 _ D1) as (i' & g & G & _). rewrite D2 in G. eauto. }
  assert (SAME : forall k c c', In (c_expr c) (map c_expr (m_boolean m ++ m_nonboolean m ++ map x_con (m_mixed m))) ->
    links_to m' (snd (conof k c)) c' -> same_constraint h h' m' (c_expr c) (c_expr c')).
  { intros k c c' X L. unfold links_to in L. cbn [snd conof] in L. pose proof (conn _ X) as Cn.
    assert (NM : forall r, In r (leaves (c_expr c)) -> exists s i i', cref_name h r = Some s /\ In (s, i) (m_features m) /\ get_feature m' s = Some i' /\
      pointing m' (own r) = Ref i' /\ cref_name h' (Ref i') = Some s).
    { intros r Ir. destruct (Cn r Ir) as (s & i & Es & Gs). apply entry_find in Gs. destruct (GET s i Gs) as (i' & G').
      exists s, i, i'. split; [exact Es|]. split; [exact Gs|]. split; [exact G'|]. unfold own. rewrite Es. cbn [pointing]. rewrite G'. split; [reflexivity|].
      cbn [cref_name]. destruct (ts_stored _ _ A1 s i') as (f & Ff & Nf); [apply (find_name_in _ _ _ (ts_names _ _ A1)); exact G'|]. unfold name_at. rewrite Ff. cbn [bind]. congruence. }
    split.
    - exists (cmap (fun r => match cref_name h r with Some s => s | None => [] end) (c_expr c)). split.
      + apply cmap_some_inj. intros r Ir. destruct (NM r Ir) as (s & i & i' & Es & _). rewrite Es. reflexivity.
      + unfold spelled. rewrite L, !cmap_cmap. apply cmap_ext_in. intros r Ir. destruct (NM r Ir) as (s & i & i' & Es & _ & _ & Po & Cr). rewrite Po, Cr, Es. reflexivity.
    - intros r Ir. rewrite L, !leaves_cmap in Ir. apply in_map_iff in Ir. destruct Ir as (r1 & <- & Ir). apply in_map_iff in Ir. destruct Ir as (r0 & <- & Ir).
      destruct (NM r0 Ir) as (s & i & i' & _ & _ & G' & Po & _). exists s, i'. auto. }
  constructor.
  - exact A1.
  - exact AR.
  - exact A2.
  - congruence.
  - congruence.
  - congruence.
  - rewrite A6. cbn [fst snd the_decl]. transitivity (map fst M); [|apply Permutation_map; apply map_order_ok].
    assert (Permutation (m_features m) M) as PM by (apply Permutation_sym; apply map_order_ok).
    pose proof root_entry as Re. apply in_M in Re. apply in_split in Re. destruct Re as (a & b & Eab). 
    assert (FP : forall l, (forall e, In e l -> In e (m_features m) /\ snd e <> rid t) -> map f_name (map (fun e => copied (fd (snd e))) (filter plain l)) = map fst l).
    { induction l as [|[s i] l IH]; intros O; [reflexivity|]. destruct (O _ (or_introl eq_refl)) as [O1 O2]. cbn [filter].
      rewrite (plain_spec s i O1). cbn [snd] in O2. destruct (Nat.eqb_spec i (rid t)); [contradiction|]. cbn [negb map snd fst]. rewrite copied_name.
      destruct (entry_facts s i O1) as (_ & Nf & _). rewrite Nf. f_equal. apply IH. intros e X. apply O. right. exact X. }
    assert (OUT : forall e, In e a \/ In e b -> In e (m_features m) /\ snd e <> rid t).
    { intros [s i] X. assert (In (s, i) (m_features m)) as Y by (apply in_M; rewrite Eab; apply in_or_app; destruct X; [left|right; right]; assumption).
      split; [exact Y|]. cbn [snd]. intros ->. assert (NoDup M) as DM.
      { apply (Permutation_NoDup PM). apply (NoDup_map_inv fst). apply (rep_keys R). }
      rewrite Eab in DM. apply NoDup_remove_2 in DM. apply DM. apply in_or_app. destruct (entry_facts s _ Y) as (_ & Nf & _).
      replace (root_name, rid t) with (s, rid t) by (rewrite <- Nf; reflexivity). tauto. }
    rewrite Eab, filter_app. cbn [filter]. rewrite (plain_spec _ _ root_entry), Nat.eqb_refl. cbn [negb]. rewrite !map_app. cbn [map fst].
    rewrite (FP a) by (intros e X; apply OUT; left; exact X). rewrite (FP b) by (intros e X; apply OUT; right; exact X). apply Permutation_middle.
  - exists root_name, (rid t), r'. split; [apply entry_find; apply root_entry|]. split; [apply (rep_root _ _ _ R)|]. split; [exact Gr'|exact Er'].
  - intros s i f G Ff. apply entry_find in G. destruct (entry_facts s i G) as (Fa & Nf & C). assert (f = fd i) as -> by congruence. clear Ff.
    destruct C as [(-> & K0 & _)|(N & K0 & _)].
    + exists r', f'. rewrite <- Nf at 1. split; [exact Gr'|]. split; [exact Fr'|]. unfold kept. rewrite K0. unfold same_data in Sr'.
      cbn [root_feature new_feature f_kind f_name f_output f_locations f_optional fst the_decl] in Sr'. destruct Sr' as (S1 & S2 & S3 & S4 & S5).
      split; [rewrite S2; reflexivity|]. tauto.
    + destruct (DATA s i G N) as (D1 & D2). destruct (A8 _ D1) as (i' & g & Gi & Fg & Sd). rewrite D2 in Gi. exists i', g. split; [exact Gi|]. split; [exact Fg|].
      unfold kept. unfold same_data, copied in Sd. destruct (f_kind (fd i)) eqn:Kf; cbn [new_feature root_feature f_kind f_name f_output f_locations f_optional] in Sd; tauto.
  - intros s i u p Gs Gu Ab. apply entry_find in Gs. apply entry_find in Gu. destruct (entry_facts s i Gs) as (Fa & Nf & C).
    destruct C as [(_ & _ & P)|(N & _ & u0 & p0 & P & Ip & Np)]; [exfalso; exact (parent_feature_none h i p P Ab)|].
    assert (p0 = p) as -> by (eapply feature_above_unique; [apply parent_feature_above; exact P|exact Ab]).
    assert (u0 = u) as -> by (destruct (entry_facts u p Gu) as (Fp & Nu & _); unfold name_at in Np; rewrite Fp in Np; cbn [bind] in Np; congruence).
    destruct (DATA s i Gs N) as (D1 & D2). destruct (A9 _ D1) as (i' & p' & Gi & Gp & Hg). rewrite D2 in Gi, Gp, Hg.
    assert (last_edge the_calls s (fst the_decl) = u) as Le.
    { apply (the_last_edge s i); [exact Gs|]. unfold up. rewrite P. exact Np. }
    rewrite Le in Gp, Hg. rewrite requests_the_calls in Hg. exists i', p', (request_for (map rreq (m_relationships m)) u).
    split; [exact Gi|]. split; [exact Gp|]. split; [exact Hg|].
    destruct (request_for (map rreq (m_relationships m)) u) as [k|] eqn:Rq.
    + apply request_for_in in Rq. apply in_map_iff in Rq. destruct Rq as (q & Eq & Iq). destruct (group_facts q Iq) as (k1 & p1 & u1 & e1 & C1 & I1 & _ & E1 & _).
      rewrite E1 in Eq. injection Eq as -> ->. assert (p1 = p) as -> by (eapply entry_same; eassumption). exists q. eexists. split; [exact Iq|]. split; [exact C1|]. split; reflexivity.
    + intros k (q & c & Iq & Cq & Dq & Pq). apply (request_for_none _ _ k Rq). apply in_map_iff. exists q. split; [|exact Iq].
      destruct (group_facts q Iq) as (k1 & p1 & u1 & e1 & C1 & I1 & N1 & E1 & _). rewrite E1. rewrite C1 in Cq. injection Cq as <-. cbn [n_data n_parent] in *.
      injection Dq as ->. injection Pq as ->. f_equal. congruence.
  - rewrite requests_the_calls in A10. assert (INC : forall q, In q (m_relationships m) -> In q (m_relationships m)) by auto. revert A10 INC.
    generalize (m_relationships m') as l'. generalize (m_relationships m) at 1 2 4 as l. induction l as [|q l IH]; intros l' F INC; inversion F as [|q' ? l1 ? X F']; subst; [constructor|].
    constructor; [|apply IH; [exact F'|intros x Y; apply INC; right; exact Y]].
    destruct X as (c' & Cq' & Dq' & Pq'). destruct (group_facts q (INC q (or_introl eq_refl))) as (k & p & u & e & Cq & Ip & _ & Eq & _).
    rewrite Eq in *. cbn [fst snd] in *. eexists. exists c', p, u. split; [exact Cq|]. split; [exact Cq'|]. split; [exact Dq'|]. split; [reflexivity|].
    split; [apply entry_find; exact Ip|exact Pq'].
  - rewrite constraints_the_calls, !flat_map_app in A11.
    assert (B1 : forall l, flat_map (fun x : ckind * cexpr cref => match fst x with KBoolean => [snd x] | _ => [] end) (map (conof KBoolean) l) = map (fun c => snd (conof KBoolean c)) l)
      by (induction l as [|c l IH]; [reflexivity|]; cbn; rewrite IH; reflexivity).
    assert (B2 : forall l, flat_map (fun x : ckind * cexpr cref => match fst x with KBoolean => [snd x] | _ => [] end) (map (conof KNonBoolean) l) = [])
      by (induction l as [|c l IH]; [reflexivity|]; exact IH).
    assert (B3 : forall l, flat_map (fun x : ckind * cexpr cref => match fst x with KBoolean => [snd x] | _ => [] end) (map (fun x => conof (KMixed (x_req x) (x_kind x)) (x_con x)) l) = [])
      by (induction l as [|c l IH]; [reflexivity|]; exact IH).
    rewrite B1, B2, B3, !app_nil_r in A11.
    assert (INC : forall c, In c (m_boolean m) -> In (c_expr c) (map c_expr (m_boolean m ++ m_nonboolean m ++ map x_con (m_mixed m)))) by (intros c X; apply in_map; apply in_or_app; left; exact X).
    revert A11 INC. generalize (m_boolean m') as l'. generalize (m_boolean m) at 1 2 4 as l.
    induction l as [|c l IH]; intros l' F INC; inversion F; subst; constructor; [eapply (SAME KBoolean); [apply INC; left; reflexivity|eassumption]|].
    apply IH; [assumption|]. intros x X. apply INC. right. exact X.
  - rewrite constraints_the_calls, !flat_map_app in A12.
    assert (B1 : forall l, flat_map (fun x : ckind * cexpr cref => match fst x with KNonBoolean => [snd x] | _ => [] end) (map (conof KBoolean) l) = [])
      by (induction l as [|c l IH]; [reflexivity|]; exact IH).
    assert (B2 : forall l, flat_map (fun x : ckind * cexpr cref => match fst x with KNonBoolean => [snd x] | _ => [] end) (map (conof KNonBoolean) l) = map (fun c => snd (conof KNonBoolean c)) l)
      by (induction l as [|c l IH]; [reflexivity|]; cbn; rewrite IH; reflexivity).
    assert (B3 : forall l, flat_map (fun x : ckind * cexpr cref => match fst x with KNonBoolean => [snd x] | _ => [] end) (map (fun x => conof (KMixed (x_req x) (x_kind x)) (x_con x)) l) = [])
      by (induction l as [|c l IH]; [reflexivity|]; exact IH).
    rewrite B1, B2, B3, !app_nil_r in A12. cbn [app] in A12.
    assert (INC : forall c, In c (m_nonboolean m) -> In (c_expr c) (map c_expr (m_boolean m ++ m_nonboolean m ++ map x_con (m_mixed m)))) by (intros c X; apply in_map; apply in_or_app; right; apply in_or_app; left; exact X).
    revert A12 INC. generalize (m_nonboolean m') as l'. generalize (m_nonboolean m) at 1 2 4 as l.
    induction l as [|c l IH]; intros l' F INC; inversion F; subst; constructor; [eapply (SAME KBoolean); [apply INC; left; reflexivity|eassumption]|].
    apply IH; [assumption|]. intros x X. apply INC. right. exact X.
  - rewrite constraints_the_calls, !flat_map_app in A13.
    set (F := fun x : ckind * cexpr cref => match fst x with KMixed r k => [((r, k), snd x)] | _ => [] end) in A13.
    assert (B1 : forall l, flat_map F (map (conof KBoolean) l) = []) by (induction l as [|c l IH]; [reflexivity|]; exact IH).
    assert (B2 : forall l, flat_map F (map (conof KNonBoolean) l) = []) by (induction l as [|c l IH]; [reflexivity|]; exact IH).
    assert (B3 : forall l, flat_map F (map (fun x => conof (KMixed (x_req x) (x_kind x)) (x_con x)) l) =
      map (fun x => ((x_req x, x_kind x), snd (conof KBoolean (x_con x)))) l) by (induction l as [|c l IH]; [reflexivity|]; cbn; rewrite IH; reflexivity).
    rewrite B1, B2, B3 in A13. cbn [app] in A13.
    assert (INC : forall c, In c (m_mixed m) -> In (c_expr (x_con c)) (map c_expr (m_boolean m ++ m_nonboolean m ++ map x_con (m_mixed m))))
      by (intros c X; apply in_map; apply in_or_app; right; apply in_or_app; right; apply in_map; exact X).
    revert A13 INC. generalize (m_mixed m') as l'. generalize (m_mixed m) at 1 2 4 as l. clear F B1 B2 B3.
    induction l as [|c l IH]; intros l' F INC; inversion F as [|? y ? ? (X1 & X2 & X3) F']; subst; constructor.
    + split; [|split; [exact X2|exact X3]]. eapply (SAME KBoolean); [apply INC; left; reflexivity|exact X1].
    + apply IH; [assumption|]. intros x X. apply INC. right. exact X.
Qed.
End Clone.
