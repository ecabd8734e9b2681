(** The calls the written options stand for. *)
From Coq Require Import List ZArith NArith Arith Bool Ascii String Permutation Lia.
From Verif Require Import Text TextProofs NumSpec LlvmInt ConstraintModel ConstraintParserModel ConstraintSpec SourceRangeModel FeatureTreeModel FeatureTreeSpec FeatureTransactionModel
  FeatureTransactionSpec FeatureEditSpec FeatureTreeProofs FeatureOrderProofs FeatureEditProofs FeatureTransactionFinal FeatureDataProofs FeatureCloneSpec FeatureCloneProofs FeatureMergeResult FeatureBuildSpec SxfmModel XmlModel
  XmlWriterModel XmlSpec XmlDetectProofs XmlReadProofs XmlTripSpec XmlTripText XmlTripWrite XmlTripOption.
Import ListNotations.
Local Open Scope string_scope.
Local Open Scope list_scope.
Local Open Scope nat_scope.

(** The declarations among the calls. *)
Definition decls (cs : list bcall) : list bcall := flat_map (fun c => match c with BFeature _ | BRoot _ => [c] | _ => [] end) cs.
Lemma decls_app a b : decls (a ++ b) = decls a ++ decls b.
Proof. apply flat_map_app. Qed.
Lemma decls_in c cs : In c (decls cs) <-> In c cs /\ match c with BFeature _ | BRoot _ => True | _ => False end.
Proof.
  unfold decls. rewrite in_flat_map. split.
  - intros (x & I & J). destruct x; cbn in J; try contradiction; destruct J as [<-|[]]; auto.
  - intros (I & X). exists c. split; [exact I|]. destruct c; try contradiction; left; reflexivity.
Qed.
(** Neither the name, nor the path, nor the commit, nor groups. *)
Definition inner (c : bcall) : Prop := match c with BFeature _ | BRoot _ | BEdge _ _ | BConstraint _ _ => True | _ => False end.

Section Model.
Variable ord : list nid -> list nid.
Hypothesis ord_ok : is_order ord.
Variables (h : heap) (m : fmodel) (t : tree).
Hypothesis R : represents h m t.
Hypothesis En : enrolled h m.
Hypothesis Rs : all_resolved m.
Hypothesis W : writable h m.

Lemma in_ids i s : get_feature m s = Some i -> In i (feature_ids t).
Proof. intros G. apply (in_features h m t R). eauto. Qed.
Lemma id_data i : In i (feature_ids t) -> exists f, feature_at h i = Some f /\ get_feature m (f_name f) = Some i.
Proof. intros I. apply (in_features h m t R) in I. exact (model_feature_at h m t R i I). Qed.
Lemma name_good s i : get_feature m s = Some i -> good s.
Proof.
  intros G. destruct (id_data i (in_ids i s G)) as (f & F & _). pose proof (name_unique h m t R i s f G F) as <-. destruct (wr_features h m W _ i f G F) as (A & B & _). split; assumption.
Qed.
Lemma top_id : m_root m = Some (rid t).
Proof. exact (rep_root _ _ _ R). Qed.

(** ** Going up *)
Lemma climb (P : nid -> Prop) : P (rid t) -> (forall i p, In i (feature_ids t) -> In p (feature_ids t) -> feature_above h i p -> P p -> P i) -> forall i, In i (feature_ids t) -> P i.
Proof.
  intros P0 PS. assert (X : forall k u, height t - height u <= k -> subtree u t -> is_feature (rdata u) = true -> P (rid u)).
  { assert (Up : forall u, subtree u t -> is_feature (rdata u) = true -> u = t \/ exists q, subtree q t /\ is_feature (rdata q) = true /\ height u < height q /\ feature_above h (rid u) (rid q)).
    { intros u U F. destruct (Nat.eq_dec (rid u) (rid t)) as [E|E]; [left; apply (subtree_unique t); [apply (rep_ids _ _ _ R)|exact U|constructor|exact E]|right].
      destruct (feature_parent_in t (rep_top_feature h m t R) u F U) as (q & Q & Fq & Iq); [congruence|]. exists q. split; [exact Q|]. split; [exact Fq|].
      destruct (holds_sub h None t q (rep_holds _ _ _ R) Q) as (o & Hq). pose proof (subtree_nodup _ _ Q (rep_ids _ _ _ R)) as Dq. destruct q as [n d ts]. cbn [rdata kids rid] in *.
      split; [exact (near_height u ts n d Iq)|]. exact (above_kid h m t R u n d ts o Hq Dq Fq Iq). }
    assert (Idf : forall u, subtree u t -> is_feature (rdata u) = true -> In (rid u) (feature_ids t)).
    { intros u U F. apply (in_features h m t R). apply (model_feature h m t R). destruct (rdata u) as [f|] eqn:D; [|discriminate]. eauto. }
    induction k as [|k IH]; intros u K U F; destruct (Up u U F) as [->|(q & Q & Fq & Hq & Ab)]; try exact P0; pose proof (height_subtree _ _ Q).
    - lia.
    - apply (PS (rid u) (rid q)); auto. apply IH; auto. lia. }
  intros i I. apply (in_features h m t R), (model_feature h m t R) in I. destruct I as (u & f & U & <- & D). apply (X (height t) u); [lia|exact U|rewrite D; reflexivity].
Qed.
Lemma above_other i p : In i (feature_ids t) -> feature_above h i p -> p <> i.
Proof.
  intros I. revert i I p. apply (climb (fun i => forall p, feature_above h i p -> p <> i)).
  - intros p A. destruct (no_parent_top h m t R p A).
  - intros i p _ _ A IH q B E. subst q. pose proof (feature_above_unique h i p A i B) as ->. exact (IH i B eq_refl).
Qed.

Lemma parent_names s p : parent_named h m s p -> p <> s /\ forall q, parent_named h m s q -> q = p.
Proof.
  intros (i & q & G & Gp & A). split.
  - intros ->. assert (q = i) as -> by congruence. exact (above_other i i (in_ids i s G) A eq_refl).
  - intros p' (i' & q' & G' & Gp' & A'). assert (i' = i) as -> by congruence. pose proof (feature_above_unique h i q A q' A') as <-.
    destruct (id_data q (in_ids q p Gp)) as (f & F & _). rewrite <- (name_unique h m t R q p f Gp F), <- (name_unique h m t R q p' f Gp' F). reflexivity.
Qed.
Lemma parent_exists s i : get_feature m s = Some i -> i <> rid t -> exists p, parent_named h m s p.
Proof.
  intros G N. destruct (parent_ok h m t R i (in_ids i s G)) as [(E & _)|(p & _ & _ & A & Ip)]; [contradiction|]. destruct (id_data p Ip) as (f & F & Gp). exists (f_name f), i, p. auto.
Qed.
Lemma no_parent_root s p : get_feature m s = Some (rid t) -> ~ parent_named h m s p.
Proof. intros G (i & q & Gi & _ & A). assert (i = rid t) as -> by congruence. exact (no_parent_top h m t R q A). Qed.

(** ** One option *)
Definition says (o : binop) (i : nid) (n : text) : Prop :=
  exists j, get_feature m n = Some j /\ (states_pair o m i j \/ o = BExcludes /\ j <> i /\ together h i j).
Lemma option_lists i f : In i (feature_ids t) -> feature_at h i = Some f -> exists q cn im ex nu rs,
  write_feature ord h m i = Some (option_doc f q cn im ex nu rs) /\ write_kind (f_kind f) = Some nu /\ map_option write_range (f_locations f) = Some rs /\
  (forall p, q = Some p <-> parent_named h m (f_name f) p) /\ (forall n, In n cn <-> parent_named h m n (f_name f)) /\
  (forall n, In n im <-> says BImplies i n) /\ (forall n, In n ex <-> says BExcludes i n) /\
  (exists is is', right_sides h m f (f_implications f) = Some is /\ Permutation is' is /\ Forall2 (fun j n => get_feature m n = Some j) is' im) /\ NoDup ex /\
  (exists cs cs', incl cs (feature_ids t) /\ NoDup cs /\ insert_all h [] cs = Some cs' /\ Forall2 (fun j n => get_feature m n = Some j) cs' cn) /\
  (exists is is', incl is (feature_ids t) /\ insert_all h [] is = Some is' /\ Forall2 (fun j n => get_feature m n = Some j) is' im) /\
  (exists ss ss' es es', incl ss (feature_ids t) /\ incl es (feature_ids t) /\ insert_all h [] ss = Some ss' /\ insert_new h ss' es = Some es' /\ Forall2 (fun j n => get_feature m n = Some j) es' ex).
Proof.
  intros I F. destruct (id_data i I) as (f0 & F0 & G). assert (f0 = f) as -> by congruence. clear F0. pose proof (wr_features h m W _ i f G F) as (Nn & Tn & Wk & Pl).
  assert (Q : exists q, (let* q := parent_feature h i in match q with None => Some [] | Some p => let* s := name_at h p in Some [leaf_elem "parent" s] end) = Some (parent_elems q) /\ (forall p, q = Some p <-> parent_named h m (f_name f) p)).
  { destruct (parent_ok h m t R i I) as [(-> & ->)|(p & Np & -> & A & Ip)]; cbn [bind].
    - exists None. split; [reflexivity|]. intros p. split; [discriminate|]. intros X. destruct (no_parent_root _ p G X).
    - destruct (id_data p Ip) as (g & Fg & Gg). unfold name_at. rewrite Fg. cbn [bind]. exists (Some (f_name g)). split; [reflexivity|]. assert (Pn : parent_named h m (f_name f) (f_name g)) by (exists i, p; auto).
      intros s. split; [intros E; injection E as <-; exact Pn|]. intros X. f_equal. symmetry. exact (proj2 (parent_names _ _ Pn) s X). }
  destruct Q as (q & Eq & Sq).
  destruct (rep_children ord ord_ok h m t R i I) as (cs & Ec & Nc & Sc).
  assert (Ci : incl cs (feature_ids t)) by (intros x X; apply Sc in X; apply (in_features h m t R), X).
  destruct (insert_all_ok h m t R cs [] (incl_nil_l _) Ci) as (cs' & Ec' & Pc). rewrite app_nil_r in Pc.
  destruct (write_names_ok h m t R "children" cs') as (cn & En1 & Sn1 & Fn1); [intros x X; apply Ci, (Permutation_in _ Pc X)|].
  destruct (right_sides_ok h m t R En Rs ClassImplies BImplies i f (f_implications f)) as (is & Ei & Si); auto.
  { intros e. destruct e as [o a b| | |]; cbn; try discriminate. destruct o; try discriminate. eauto. } { intros id. exact (en_implies h m En _ i f id G F). }
  assert (Ii : incl is (feature_ids t)) by (intros x X; apply Si in X; apply X).
  destruct (insert_all_ok h m t R is [] (incl_nil_l _) Ii) as (is' & Ei' & Pi). rewrite app_nil_r in Pi.
  destruct (write_names_ok h m t R "impliedOptions" is') as (im & En2 & Sn2 & Fn2); [intros x X; apply Ii, (Permutation_in _ Pi X)|].
  destruct (siblings_ok ord ord_ok h m t R i I) as (ss & Es & Ss & Ns).
  assert (Is : incl ss (feature_ids t)) by (intros x X; apply Ss in X; apply X).
  destruct (insert_all_ok h m t R ss [] (incl_nil_l _) Is) as (ss' & Es' & Ps). rewrite app_nil_r in Ps.
  destruct (right_sides_ok h m t R En Rs ClassExcludes BExcludes i f (f_excludes f)) as (es & Ee & Se); auto.
  { intros e. destruct e as [o a b| | |]; cbn; try discriminate. destruct o; try discriminate. eauto. } { intros id. exact (en_excludes h m En _ i f id G F). }
  assert (Ie : incl es (feature_ids t)) by (intros x X; apply Se in X; apply X).
  destruct (insert_new_ok h m t R es ss') as (es' & Ee' & Pe & Ne); [intros x X; apply Is, (Permutation_in _ Ps X)|exact Ie|].
  destruct (write_names_ok h m t R "excludedOptions" es') as (ex & En3 & Sn3 & Fn3).
  { intros x X. apply Pe in X. destruct X as [X|X]; [apply Is, (Permutation_in _ Ps X)|apply Ie, X]. }
  destruct (kind_written (fun _ => None) _ Wk) as (nu & Ek & _). destruct (ranges_ok _ Pl) as (rs & Er & _).
  exists q, cn, im, ex, nu, rs. split.
  { unfold write_feature. rewrite F. cbn [bind]. destruct (parent_feature h i) as [pf|]; [|discriminate]. cbn [bind] in Eq |- *. rewrite Eq. cbn [bind]. rewrite Ec. cbn [bind]. rewrite Ec'. cbn [bind]. rewrite En1. cbn [bind].
    rewrite Ei. cbn [bind]. rewrite Ei'. cbn [bind]. rewrite En2. cbn [bind]. rewrite Es. cbn [bind]. rewrite Es'. cbn [bind]. rewrite Ee. cbn [bind]. rewrite Ee'. cbn [bind]. rewrite En3. cbn [bind]. rewrite Ek. cbn [bind]. rewrite Er. reflexivity. }
  split; [exact Ek|]. split; [exact Er|]. split; [exact Sq|]. split; [|split; [|split; [|split; [exists is, is'; auto|split; [|split; [exists cs, cs'; auto|split; [exists is, is'; auto|exists ss, ss', es, es'; auto 6]]]]]]].
  - intros n. rewrite Sn1. split.
    + intros (j & J & Gj). exists j, i. apply (Permutation_in _ Pc) in J. apply Sc in J. split; [exact Gj|]. split; [exact G|apply J].
    + intros (j & i' & Gj & Gi & A). assert (i' = i) as -> by congruence. exists j. split; [|exact Gj]. apply (Permutation_in _ (Permutation_sym Pc)). apply Sc. split; eauto.
  - intros n. rewrite Sn2. split.
    + intros (j & J & Gj). exists j. apply (Permutation_in _ Pi) in J. apply Si in J. tauto.
    + intros (j & Gj & [X|(X & _)]); [|discriminate]. exists j. split; [|exact Gj]. apply (Permutation_in _ (Permutation_sym Pi)). apply Si. split; [exact (in_ids j n Gj)|exact X].
  - intros n. rewrite Sn3. split.
    + intros (j & J & Gj). exists j. split; [exact Gj|]. apply Pe in J. destruct J as [J|J]; [apply (Permutation_in _ Ps), Ss in J; tauto|apply Se in J; tauto].
    + intros (j & Gj & X). exists j. split; [|exact Gj]. apply Pe. destruct X as [X|(_ & N & X)]; [right; apply Se|left; apply (Permutation_in _ (Permutation_sym Ps)), Ss]; pose proof (in_ids j n Gj); tauto.
  - specialize (Ne (Permutation_NoDup (Permutation_sym Ps) Ns)). clear - Fn3 Ne. induction Fn3 as [|j n l ns Gj Fn IH]; [constructor|]. inversion Ne as [|? ? Nj Ne']; subst. constructor; [|exact (IH Ne')].
    intros X. apply Nj. clear - Fn X Gj. induction Fn as [|k n' l ns Gk Fn IH]; [destruct X|]. destruct X as [->|X]; [left; congruence|right; exact (IH X)].
Qed.
Lemma option_written i f : In i (feature_ids t) -> feature_at h i = Some f -> exists q cn im ex nu rs,
  write_feature ord h m i = Some (option_doc f q cn im ex nu rs) /\ write_kind (f_kind f) = Some nu /\ map_option write_range (f_locations f) = Some rs /\
  (forall p, q = Some p <-> parent_named h m (f_name f) p) /\ (forall n, In n cn <-> parent_named h m n (f_name f)) /\
  (forall n, In n im <-> says BImplies i n) /\ (forall n, In n ex <-> says BExcludes i n) /\
  (exists is is', right_sides h m f (f_implications f) = Some is /\ Permutation is' is /\ Forall2 (fun j n => get_feature m n = Some j) is' im) /\ NoDup ex.
Proof.
  intros I F. destruct (option_lists i f I F) as (q & cn & im & ex & nu & rs & A1 & A2 & A3 & A4 & A5 & A6 & A7 & A8 & A9 & _). exists q, cn, im, ex, nu, rs. auto 12.
Qed.

(** What the calls of an option say. *)
Record option_calls (i : nid) (f : feature) (l : list bcall) : Prop := OptionCalls {
  oc_inner : Forall inner l;
  oc_edges : forall p s, In (BEdge p s) l -> parent_named h m s p;
  oc_parent : forall p, parent_named h m (f_name f) p -> In (BEdge p (f_name f)) l;
  oc_constraints : forall k x, In (BConstraint k x) l <-> k = KBoolean /\ exists o n, (o = BImplies \/ o = BExcludes) /\ says o i n /\ x = CBin o (CFeat (Own (f_name f))) (CFeat (Own n));
  oc_list : exists is is' im ex, right_sides h m f (f_implications f) = Some is /\ Permutation is' is /\ Forall2 (fun j n => get_feature m n = Some j) is' im /\ NoDup ex /\
    constraints_of l = map (fun n => (KBoolean, CBin BImplies (CFeat (Own (f_name f))) (CFeat (Own n)))) im ++ map (fun n => (KBoolean, CBin BExcludes (CFeat (Own (f_name f))) (CFeat (Own n)))) ex;
  oc_decl : exists c, decls l = [c] /\ (m_root m = Some i -> c = BRoot (f_name f)) /\ (m_root m <> Some i -> exists g, c = BFeature g /\ back f g /\ f_kind g <> FRoot)
}.

Section Reading.
Variables (sci : text -> option text) (step : text -> sx (option (Z -> option Z))).
Lemma option_ok i f : In i (feature_ids t) -> feature_at h i = Some f -> exists e l,
  write_feature ord h m i = Some e /\ tag e = T "configurationOption" /\ valid e = true /\ option_stands sci step (num_kind (f_kind f)) e l /\ option_calls i f l.
Proof.
  intros I F. destruct (option_written i f I F) as (q & cn & im & ex & nu & rs & E & Ek & Er & Sq & Sc & Si & Se & (is & is' & Ri & Pm & Fm) & Nx). destruct (id_data i I) as (f0 & F0 & G). assert (f0 = f) as -> by congruence. clear F0.
  destruct (option_meaning sci step f q cn im ex nu rs) as (V & c & St & Rt & Ft); auto.
  { exact (wr_features h m W _ i f G F). }
  { destruct q as [p|]; [|exact Logic.I]. destruct (proj1 (Sq p) eq_refl) as (a & b & _ & Gp & _). exact (name_good p b Gp). }
  { apply Forall_forall. intros n N. apply Sc in N. destruct N as (a & b & Ga & _). exact (name_good n a Ga). }
  { apply Forall_forall. intros n N. apply Si in N. destruct N as (a & Ga & _). exact (name_good n a Ga). }
  { apply Forall_forall. intros n N. apply Se in N. destruct N as (a & Ga & _). exact (name_good n a Ga). }
  eexists _, _. split; [exact E|]. split; [reflexivity|]. split; [exact V|]. split; [exact St|].
  assert (C : (m_root m = Some i -> c = BRoot (f_name f)) /\ (m_root m <> Some i -> exists g, c = BFeature g /\ back f g /\ f_kind g <> FRoot)).
  { pose proof (wr_root h m W _ i G) as Wr. pose proof (wr_kind h m W _ i f G F) as Wk. split; [intros X; apply Rt; tauto|]. intros X. apply Ft; tauto. }
  assert (Cd : match c with BFeature _ | BRoot _ => True | _ => False end).
  { destruct (Nat.eq_dec i (rid t)) as [->|N]; [rewrite (proj1 C top_id); exact Logic.I|]. destruct (proj2 C) as (g & -> & _); [rewrite top_id; congruence|exact Logic.I]. }
  assert (Parent : forall a b, In (BEdge a b) (match q with Some s => [BEdge s (f_name f)] | None => [] end) <-> b = f_name f /\ q = Some a).
  { intros a b. destruct q as [p|]; cbn; [|split; [intros []|intros (_ & X); discriminate]]. split; [intros [X|[]]; injection X as -> ->; auto|intros (-> & X); injection X as ->; auto]. }
  constructor.
  - apply Forall_app. split; [destruct q; repeat constructor|]. apply Forall_app. split; [apply Forall_map; apply Forall_forall; intros; exact Logic.I|].
    apply Forall_app. split; [apply Forall_map; apply Forall_forall; intros; exact Logic.I|]. apply Forall_app. split; [apply Forall_map; apply Forall_forall; intros; exact Logic.I|].
    constructor; [|constructor]. destruct c; try contradiction; exact Logic.I.
  - intros p s X. rewrite !in_app_iff in X. destruct X as [X|[X|[X|[X|X]]]].
    + apply Parent in X. destruct X as (-> & X). apply Sq. exact X.
    + apply in_map_iff in X. destruct X as (n & X & N). injection X as <- <-. apply Sc. exact N.
    + apply in_map_iff in X. destruct X as (n & X & N). discriminate.
    + apply in_map_iff in X. destruct X as (n & X & N). discriminate.
    + destruct X as [X|[]]. subst c. destruct Cd.
  - intros p X. apply in_app_iff. left. apply Parent. split; [reflexivity|]. apply Sq. exact X.
  - intros k x. rewrite !in_app_iff. split.
    + intros [X|[X|[X|[X|X]]]].
      * destruct q; [destruct X as [X|[]]; discriminate|destruct X].
      * apply in_map_iff in X. destruct X as (n & X & N). discriminate.
      * apply in_map_iff in X. destruct X as (n & X & N). injection X as <- <-. split; [reflexivity|]. exists BImplies, n. apply Si in N. auto.
      * apply in_map_iff in X. destruct X as (n & X & N). injection X as <- <-. split; [reflexivity|]. exists BExcludes, n. apply Se in N. auto.
      * destruct X as [X|[]]. subst c. destruct Cd.
    + intros (-> & o & n & [->| ->] & Sy & ->); right; right; [left|right; left]; apply in_map_iff; exists n; (split; [reflexivity|]); [apply Si|apply Se]; exact Sy.
  - exists is, is', im, ex. split; [exact Ri|]. split; [exact Pm|]. split; [exact Fm|]. split; [exact Nx|]. unfold constraints_of. rewrite !flat_map_app. unfold pairs.
    assert (Z1 : flat_map (fun c => match c with BConstraint k e => [(k, e)] | _ => [] end) match q with Some s => [BEdge s (f_name f)] | None => [] end = []) by (destruct q; reflexivity).
    assert (Z2 : flat_map (fun c => match c with BConstraint k e => [(k, e)] | _ => [] end) (map (BEdge (f_name f)) cn) = []) by (clear; induction cn as [|a l IH]; [reflexivity|exact IH]).
    assert (Z3 : flat_map (fun c => match c with BConstraint k e => [(k, e)] | _ => [] end) [c] = []) by (destruct c; try contradiction; reflexivity).
    assert (Z4 : forall o l, flat_map (fun c => match c with BConstraint k e => [(k, e)] | _ => [] end) (map (fun x => BConstraint KBoolean (CBin o (CFeat (Own (f_name f))) (CFeat (Own x)))) l) = map (fun n => (KBoolean, CBin o (CFeat (Own (f_name f))) (CFeat (Own n)))) l)
      by (clear; intros o l; induction l as [|a l IH]; [reflexivity|cbn [map flat_map app]; f_equal; exact IH]).
    rewrite Z1, Z2, Z3, !Z4, app_nil_r. reflexivity.
  - exists c. split; [|exact C]. rewrite !decls_app.
    assert (None_of : forall A (g : A -> bcall) l, (forall a, match g a with BFeature _ | BRoot _ => False | _ => True end) -> decls (map g l) = []).
    { intros A g l X. induction l as [|a l IH]; [reflexivity|]. cbn [map]. unfold decls in *. cbn [flat_map]. rewrite IH. specialize (X a). destruct (g a); try contradiction; reflexivity. }
    unfold pairs. rewrite !None_of by (intros; exact Logic.I). destruct q; cbn [app decls flat_map]; destruct c; try contradiction; reflexivity.
Qed.
End Reading.
End Model.
