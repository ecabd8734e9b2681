(** The order of the calls on a model builder: proofs. *)
From Coq Require Import List ZArith Arith Bool Ascii String Permutation Lia.
From Verif Require Import Text TextProofs ConstraintModel ConstraintSpec FeatureTreeModel FeatureTreeSpec FeatureTransactionModel FeatureTransactionSpec FeatureEditSpec FeatureEditProofs FeatureCloneSpec FeatureBuildSpec
  FeatureBuildFinal FeatureCloneProofs CloneSameProofs ValidProofs SolverModel SolverSpec XmlSpec DescribedSpec DescribedFinal XmlRangeProofs OutcomeProofs XmlTripSpec XmlCycleSpec SxfmBuildProofs BuildOrderSpec.
Import ListNotations.

(** ** Values set last *)
Section Last.
Variable pr : bcall -> option text.
Definition last_of (cs : list bcall) (d : text) : text := fold_left (fun d c => match pr c with Some s => s | None => d end) cs d.
Lemma last_of_spec : forall cs d, (last_of cs d = d /\ forall c, In c cs -> pr c = None) \/ exists c, In c cs /\ pr c = Some (last_of cs d).
Proof.
  induction cs as [|c cs IH]; intros d; [left; split; [reflexivity|intros c []]|]. cbn [last_of fold_left]. fold (last_of cs (match pr c with Some s => s | None => d end)).
  destruct (IH (match pr c with Some s => s | None => d end)) as [(E & N)|(c' & I & E)]; [|right; exists c'; split; [right; exact I|exact E]].
  destruct (pr c) as [s|] eqn:P; [right; exists c; split; [left; reflexivity|congruence]|]. left. split; [exact E|]. intros x [<-|I]; [exact P|exact (N x I)].
Qed.
Lemma last_of_perm cs cs' d : Permutation cs cs' -> (forall c c' s s', In c cs -> In c' cs -> pr c = Some s -> pr c' = Some s' -> s = s') -> last_of cs' d = last_of cs d.
Proof.
  intros P A. destruct (last_of_spec cs d) as [(E & N)|(c & I & E)]; destruct (last_of_spec cs' d) as [(E' & N')|(c' & I' & E')].
  - congruence.
  - apply (Permutation_in _ (Permutation_sym P)) in I'. rewrite (N _ I') in E'. discriminate.
  - apply (Permutation_in _ P) in I. rewrite (N' _ I) in E. discriminate.
  - apply (Permutation_in _ (Permutation_sym P)) in I'. exact (A _ _ _ _ I' I E' E).
Qed.
End Last.

Lemma last_edge_of s : forall cs d, last_edge cs s d = last_of (fun c => match c with BEdge p c => if text_eqb c s then Some p else None | _ => None end) cs d.
Proof.
  induction cs as [|c cs IH]; intros d; [reflexivity|]. destruct c; cbn [last_edge last_of fold_left]; rewrite IH; try reflexivity.
  destruct (text_eqb child s); reflexivity.
Qed.
Lemma fold_ext {A B} (f g : A -> B -> A) : (forall a b, f a b = g a b) -> forall l a, fold_left f l a = fold_left g l a.
Proof. intros E. induction l as [|b l IH]; intros a; cbn; [reflexivity|]. rewrite E. apply IH. Qed.

(** ** The declarations *)
Definition features_of (cs : list bcall) : list feature := flat_map (fun c => match c with BFeature f => [f] | _ => [] end) cs.
Definition root_of (c : bcall) : option text := match c with BRoot s => Some s | _ => None end.
Lemma declares_parts cs : forall d e, declares d cs e -> e = (last_of root_of cs (fst d), snd d ++ features_of cs).
Proof.
  intros d e D. induction D as [[r fs]|root fs f cs d N D IH|root fs cs d D IH|root fs s cs d N D IH|[r fs] c cs e O D IH].
  - cbn. rewrite app_nil_r. reflexivity.
  - rewrite IH. cbn. rewrite <- app_assoc. reflexivity.
  - exact IH.
  - exact IH.
  - destruct c; try contradiction; exact IH.
Qed.
Lemma in_features_of f cs : In f (features_of cs) <-> In (BFeature f) cs.
Proof.
  unfold features_of. rewrite in_flat_map. split.
  - intros (c & I & X). destruct c; try contradiction. destruct X as [<-|[]]. exact I.
  - intros I. exists (BFeature f). split; [exact I|left; reflexivity].
Qed.
Lemma parts_declare r : forall cs rt fs,
  (forall s, In (BRoot s) cs -> s = r) -> NoDup (map f_name (fs ++ features_of cs)) -> ~ In rt (map f_name (fs ++ features_of cs)) -> ~ In r (map f_name (fs ++ features_of cs)) ->
  declares (rt, fs) cs (last_of root_of cs rt, fs ++ features_of cs).
Proof.
  induction cs as [|c cs IH]; intros rt fs Rs ND N1 N2; [cbn; rewrite app_nil_r; constructor|].
  assert (forall s, In (BRoot s) cs -> s = r) as Rs' by (intros s I; apply Rs; right; exact I).
  destruct c; try (apply dec_other; [exact Logic.I|]; exact (IH rt fs Rs' ND N1 N2)).
  - cbn [features_of flat_map app] in *. fold (features_of cs) in *. replace (fs ++ f :: features_of cs) with ((fs ++ [f]) ++ features_of cs) in * by (rewrite <- app_assoc; reflexivity).
    apply dec_feature; [|exact (IH rt _ Rs' ND N1 N2)]. intros [E|X]; cbn [fst snd] in *.
    + apply N1. rewrite <- E. apply in_map. apply in_or_app. left. apply in_or_app. right. left. reflexivity.
    + rewrite map_app, map_app in ND. cbn [map] in ND. rewrite <- app_assoc in ND. apply NoDup_remove_2 in ND. apply ND. apply in_or_app. left. exact X.
  - cbn [features_of flat_map app] in *. fold (features_of cs) in *. assert (s = r) as -> by (apply Rs; left; reflexivity).
    change (last_of root_of (BRoot r :: cs) rt) with (last_of root_of cs r). destruct (list_eq_dec ascii_dec r rt) as [<-|Ne].
    + apply dec_same. exact (IH r fs Rs' ND N1 N2).
    + apply dec_root; [|exact (IH r fs Rs' ND N2 N2)]. intros [E|X]; cbn [fst snd] in *; [contradiction|]. apply N2. rewrite map_app. apply in_or_app. left. exact X.
Qed.

Lemma perm_flat_map {A B} (f : A -> list B) l l' : Permutation l l' -> Permutation (flat_map f l) (flat_map f l').
Proof. apply Permutation_flat_map. Qed.

Lemma matched_left {A B} (P : A -> B -> Prop) l l' x : Forall2 P l l' -> In x l -> exists y, In y l' /\ P x y.
Proof. induction 1 as [|a b l l' Q F IH]; [intros []|]. intros [<-|I]; [exists b; split; [left; reflexivity|exact Q]|]. destruct (IH I) as (y & Iy & Py). exists y. split; [right; exact Iy|exact Py]. Qed.
Lemma matched_right {A B} (P : A -> B -> Prop) l l' y : Forall2 P l l' -> In y l' -> exists x, In x l /\ P x y.
Proof. induction 1 as [|a b l l' Q F IH]; [intros []|]. intros [<-|I]; [exists a; split; [left; reflexivity|exact Q]|]. destruct (IH I) as (x & Ix & Px). exists x. split; [right; exact Ix|exact Px]. Qed.
Lemma matched_length {A B} (P : A -> B -> Prop) l l' : Forall2 P l l' -> List.length l = List.length l'.
Proof. induction 1; cbn; congruence. Qed.

(** ** Reordering *)
Section Reordering.
Variables (cs cs' : list bcall) (d : decl).
Hypothesis ro : reordered cs cs'.
Hypothesis de : describes cs d.

Lemma reordered_back : reordered cs' cs.
Proof.
  destruct ro as [P E N C Pa R F]. assert (B : forall c, In c cs' -> In c cs) by (intros c; apply Permutation_in; apply Permutation_sym; exact P).
  constructor; [apply Permutation_sym; exact P|..]; eauto.
Qed.
Lemma same_last_edge s t : last_edge cs' s t = last_edge cs s t.
Proof.
  rewrite !last_edge_of. apply last_of_perm; [exact (ro_calls _ _ ro)|]. intros c c' p q I I' X Y. destruct c; try discriminate. destruct c'; try discriminate.
  destruct (text_eqb child s) eqn:E1; [|discriminate]. destruct (text_eqb child0 s) eqn:E2; [|discriminate]. apply text_eqb_eq in E1, E2. subst. injection X as <-. injection Y as <-.
  exact (ro_parents _ _ ro _ _ _ I I').
Qed.
Lemma same_requests : Permutation (requests cs) (requests cs').
Proof. apply perm_flat_map. exact (ro_calls _ _ ro). Qed.
Lemma same_constraints : Permutation (constraints_of cs) (constraints_of cs').
Proof. apply perm_flat_map. exact (ro_calls _ _ ro). Qed.
Definition decl' : decl := (fst d, features_of cs').
Lemma declared_features : snd d = features_of cs.
Proof. rewrite (declares_parts _ _ _ (de_declares _ _ de)). reflexivity. Qed.
Lemma declared_root : fst d = last_of root_of cs default_root.
Proof. rewrite (declares_parts _ _ _ (de_declares _ _ de)). reflexivity. Qed.
Lemma declared_distinct : NoDup (fst d :: map f_name (snd d)).
Proof. apply (declares_distinct _ _ _ (de_declares _ _ de)). constructor; [intros []|constructor]. Qed.
Lemma same_features : Permutation (snd d) (features_of cs').
Proof. rewrite declared_features. apply perm_flat_map. exact (ro_calls _ _ ro). Qed.
Lemma back_in c : In c cs' -> In c cs.
Proof. apply Permutation_in. apply Permutation_sym. exact (ro_calls _ _ ro). Qed.
Lemma same_taken s : taken decl' s <-> taken d s.
Proof.
  unfold taken, decl'. cbn [fst snd]. pose proof (Permutation_map f_name same_features) as P. split; (intros [E|I]; [left; exact E|right]);
    [apply (Permutation_in _ (Permutation_sym P))|apply (Permutation_in _ P)]; exact I.
Qed.
Lemma root_declared s : In (BRoot s) cs -> s = fst d.
Proof.
  intros I. rewrite declared_root. destruct (last_of_spec root_of cs default_root) as [(_ & N)|(c & Ic & E)].
  - specialize (N _ I). discriminate.
  - destruct c; try discriminate. injection E as E. rewrite <- E. exact (ro_roots _ _ ro _ _ I Ic).
Qed.
Lemma described_again : describes cs' decl'.
Proof.
  pose proof declared_distinct as ND. pose proof (Permutation_map f_name same_features) as P.
  constructor.
  - unfold decl'. assert (fst d = last_of root_of cs' default_root) as ->.
    { rewrite declared_root. symmetry. apply last_of_perm; [exact (ro_calls _ _ ro)|]. intros c c' s s' I I' X Y. destruct c; try discriminate. destruct c'; try discriminate.
      injection X as <-. injection Y as <-. exact (ro_roots _ _ ro _ _ I I'). }
    apply (parts_declare (fst d) cs' default_root []); cbn [app].
    + intros s I. apply root_declared. apply back_in. exact I.
    + apply (Permutation_NoDup P). apply NoDup_cons_iff in ND. apply ND.
    + intros X. apply in_map_iff in X. destruct X as (f & E & I). apply (ro_free _ _ ro f); [|exact E]. apply back_in. apply in_features_of. exact I.
    + intros X. apply (Permutation_in _ (Permutation_sym P)) in X. apply NoDup_cons_iff in ND. exact (proj1 ND X).
  - intros c I. exact (de_ordinary _ _ de c (back_in c I)).
  - intros c I. pose proof (de_edges _ _ de c (back_in c I)) as E. destruct c; try exact E. cbn [edge_ok] in *. rewrite !same_taken. exact E.
  - intros p s I. exact (de_root _ _ de p s (back_in _ I)).
  - intros f I. cbn [fst snd decl'] in *. apply (Permutation_in _ (Permutation_sym same_features)) in I. pose proof (de_tree _ _ de f I) as L.
    induction L as [|s L IH]; [apply leads_root|]. apply leads_up. rewrite same_last_edge. exact IH.
  - intros c I. pose proof (de_relations _ _ de c (back_in c I)) as E. destruct c; try exact E; cbn [relation_ok] in *; [rewrite same_taken; exact E|].
    intros r Ir. destruct (E r Ir) as (s & -> & Ts). exists s. rewrite same_taken. auto.
  - apply (Permutation_NoDup (Permutation_map fst same_requests)). exact (de_groups _ _ de).
Qed.
Lemma same_request s : request_for (requests cs') s = request_for (requests cs) s.
Proof.
  pose proof (de_groups _ _ de) as ND. pose proof (de_groups _ _ described_again) as ND'. pose proof same_requests as P.
  destruct (request_for (requests cs) s) as [k|] eqn:E.
  - apply request_for_in in E. apply (Permutation_in _ P) in E. apply SxfmBuildProofs.request_in; assumption.
  - destruct (request_for (requests cs') s) as [k|] eqn:E'; [|reflexivity]. apply request_for_in in E'. apply (Permutation_in _ (Permutation_sym P)) in E'.
    destruct (request_for_none _ _ k E E').
Qed.
End Reordering.

(** ** Configurations *)
Lemma value_same d d' x a e v : (forall s, numeric_name d s <-> numeric_name d' s) -> has_value d x a e v -> has_value d' x a e v.
Proof.
  intros N V. induction V; try (econstructor; eassumption). constructor. destruct H as [H|H E|H E]; [apply nv_number|apply nv_counted|apply nv_truth]; try exact E; firstorder.
Qed.
Lemma configures_reordered cs cs' d a : reordered cs cs' -> describes cs d -> configures cs d (requested cs) a -> configures cs' (decl' cs' d) (requested cs') a.
Proof.
  intros ro de C. pose proof (same_features cs cs' d ro de) as PF. pose proof (same_requests cs cs' ro) as PR. pose proof (same_constraints cs cs' ro) as PC.
  assert (I : forall f, In f (snd (decl' cs' d)) <-> In f (snd d)) by (intros f; split; apply Permutation_in; [apply Permutation_sym|]; exact PF).
  assert (R : forall s k, requested cs' s k <-> requested cs s k) by (intros s k; split; apply Permutation_in; [apply Permutation_sym|]; exact PR).
  assert (K : forall x, In x (constraints_of cs') -> In x (constraints_of cs)) by (intros x; apply Permutation_in; apply Permutation_sym; exact PC).
  assert (U : forall s, parent_of cs' (decl' cs' d) s = parent_of cs d s) by (intros s; apply same_last_edge; exact ro).
  assert (B : forall s f, below cs' (decl' cs' d) s f <-> below cs d s f) by (intros s f; unfold below; rewrite I; cbn [fst decl']; rewrite (same_last_edge cs cs' ro); reflexivity).
  assert (N : forall s, numeric_name d s <-> numeric_name (decl' cs' d) s) by (intros s; unfold numeric_name; split; intros (f & X & Y); exists f; (split; [apply I; exact X|exact Y])).
  destruct C as [C1 C2 C3 C4 C5 C6 C7 C8]. constructor.
  - exact C1.
  - intros f X. rewrite U. apply C2. apply I. exact X.
  - intros f X Kf Of G. rewrite U in *. apply C3; try assumption; [apply I; exact X|]. intros k Y. apply (G k). apply R. exact Y.
  - intros s G S. destruct (C4 s) as (f & Bf & Sf & O); [apply R; exact G|exact S|]. exists f. split; [apply B; exact Bf|]. split; [exact Sf|]. intros g Bg. apply O. apply B. exact Bg.
  - intros s G S. destruct (C5 s) as (f & Bf & Sf); [apply R; exact G|exact S|]. exists f. split; [apply B; exact Bf|exact Sf].
  - intros f v st X. apply C6. apply I. exact X.
  - intros k e X Y. apply (value_same d); [exact N|]. exact (C7 k e (K _ X) Y).
  - intros r k e X. destruct (C8 r k e (K _ X)) as [V|(Er & s & Is & Ns & As)]; [left; apply (value_same d); [exact N|exact V]|right]. split; [exact Er|].
    exists s. split; [exact Is|]. split; [rewrite <- N; exact Ns|exact As].
Qed.

(** ** What is known of a built model by name *)
Section Built.
Variables (cs : list bcall) (d : decl) (h : heap) (m : fmodel).
Hypothesis de : describes cs d.
Hypothesis ad : as_described cs d h m.

Lemma named_feature s i : get_feature m s = Some i -> exists f, feature_at h i = Some f /\ f_name f = s.
Proof. intros G. apply (ts_stored _ _ (ad_tree _ _ _ _ ad)). apply (find_name_in _ _ _ (ts_names _ _ (ad_tree _ _ _ _ ad))). exact G. Qed.
Lemma named_once s u i : get_feature m s = Some i -> get_feature m u = Some i -> s = u.
Proof. intros G G'. destruct (named_feature s i G) as (f & F & <-). destruct (named_feature u i G') as (f' & F' & <-). congruence. Qed.
Lemma taken_known s : taken d s <-> exists i, get_feature m s = Some i.
Proof.
  pose proof (ad_names _ _ _ _ ad) as P. pose proof (ts_names _ _ (ad_tree _ _ _ _ ad)) as ND. assert (taken d s <-> In s (fst d :: map f_name (snd d))) as ->.
  { unfold taken. cbn [In]. intuition congruence. }
  split.
  - intros I. apply (Permutation_in _ (Permutation_sym P)) in I. apply in_map_iff in I. destruct I as ((u & i) & E & I). cbn in E. subst u. exists i. apply find_name_in; assumption.
  - intros (i & G). apply (Permutation_in _ P). apply (find_name_in _ _ _ ND) in G. apply in_map_iff. exists (s, i). auto.
Qed.
Lemma data_of s i f : get_feature m s = Some i -> feature_at h i = Some f ->
  (s = fst d /\ FeatureBuildSpec.same_data (root_feature (fst d)) f) \/ exists g, In g (snd d) /\ f_name g = s /\ FeatureBuildSpec.same_data g f.
Proof.
  intros G F. destruct (proj2 (taken_known s) (ex_intro _ i G)) as [->|I].
  - left. split; [reflexivity|]. destruct (ad_root _ _ _ _ ad) as (r & f' & _ & Gr & Fr & Sr). rewrite G in Gr. injection Gr as <-. rewrite F in Fr. injection Fr as <-. exact Sr.
  - right. apply in_map_iff in I. destruct I as (g & <- & Ig). exists g. split; [exact Ig|]. split; [reflexivity|]. destruct (ad_data _ _ _ _ ad g Ig) as (j & f' & Gj & Fj & Sj).
    rewrite G in Gj. injection Gj as <-. rewrite F in Fj. injection Fj as <-. exact Sj.
Qed.
Lemma hangs_named s u i p g : get_feature m s = Some i -> get_feature m u = Some p ->
  (hangs h i p g <-> In s (map f_name (snd d)) /\ u = last_edge cs s (fst d) /\ g = request_for (requests cs) u).
Proof.
  intros Gs Gu. split.
  - intros H. destruct (proj2 (taken_known s) (ex_intro _ i Gs)) as [->|I].
    { exfalso. destruct (ad_root _ _ _ _ ad) as (r & f & Er & Gr & _). rewrite Gs in Gr. injection Gr as <-. destruct H as (c & C & X).
      destruct (ts_root _ _ (ad_tree _ _ _ _ ad)) as (r & c' & f' & Er' & _ & C' & P' & _). rewrite Er in Er'. injection Er' as <-. rewrite C in C'. injection C' as <-.
      destruct g as [k|]; [destruct X as (q & cq & Y & _)|]; congruence. }
    split; [exact I|]. apply in_map_iff in I. destruct I as (f & <- & If). destruct (ad_parents _ _ _ _ ad f If) as (j & q & Gj & Gq & Hq). rewrite Gs in Gj. injection Gj as <-.
    destruct (named_feature _ _ Gu) as (fu & Fu & _). destruct (named_feature _ _ Gq) as (fq & Fq & _). destruct (hangs_same h i p q _ _ fu fq Fu Fq H Hq) as (<- & ->).
    pose proof (named_once _ _ _ Gu Gq) as <-. auto.
  - intros (I & Eu & ->). apply in_map_iff in I. destruct I as (f & <- & If). destruct (ad_parents _ _ _ _ ad f If) as (j & q & Gj & Gq & Hq). rewrite Gs in Gj. injection Gj as <-. rewrite <- Eu in Gq, Hq. rewrite Gu in Gq. injection Gq as <-. exact Hq.
Qed.
Lemma group_named u p k : get_feature m u = Some p -> (group_of h m p k <-> In (u, k) (requests cs)).
Proof.
  intros G. pose proof (ad_groups _ _ _ _ ad) as F. split.
  - intros (q & c & I & C & D & P). destruct (matched_left _ _ _ q F I) as ((s & k') & Ir & c' & C' & D' & P'). cbn [fst snd] in *.
    rewrite C in C'. injection C' as <-. rewrite D in D'. injection D' as <-. rewrite P in P'. pose proof (named_once _ _ _ G (eq_sym P')) as <-. exact Ir.
  - intros I. destruct (matched_right _ _ _ (u, k) F I) as (q & Iq & c & C & D & P). exists q, c. cbn [fst snd] in *. rewrite G in P. auto.
Qed.

(** The constraint with the names as strings. *)
Definition strings (e : cexpr cref) : cexpr string := cmap (fun r => match r with Own s => U s | Ref _ => EmptyString end) e.
Lemma linked_spelled e c : mentions_declared d e -> links_to m e c -> spelled h (c_expr c) (strings e).
Proof.
  unfold links_to. intros M ->. unfold mentions_declared in M. unfold strings. induction e as [o l IHl r IHr|o e IH|z|r]; cbn [cmap leaves] in *.
  - constructor; [apply IHl|apply IHr]; intros x I; apply M; apply in_or_app; [left|right]; exact I.
  - constructor. apply IH. exact M.
  - constructor.
  - constructor. destruct (M r (or_introl eq_refl)) as (s & -> & Ts). apply taken_known in Ts. destruct Ts as (i & G). cbn [pointing]. rewrite G. cbn [called_in].
    destruct (named_feature s i G) as (f & F & N). exists f. split; [exact F|]. rewrite N, T_U. reflexivity.
Qed.
Lemma constraint_declared k e : In (k, e) (constraints_of cs) -> mentions_declared d e.
Proof.
  intros I. unfold constraints_of in I. apply in_flat_map in I. destruct I as (c & I & X). destruct c; try contradiction. destruct X as [X|[]]. injection X as <- <-. exact (de_relations _ _ de _ I).
Qed.
End Built.

Lemma orders_match {A B} (R R' : A -> B -> Prop) (S : B -> B -> Prop) l l' b b' : Permutation l l' -> Forall2 R l b -> Forall2 R' l' b' ->
  (forall x y y', In x l -> R x y -> R' x y' -> S y y') -> in_some_order S b b'.
Proof.
  intros P F F' E. destruct (Permutation_Forall2 (Permutation_sym P) F') as (k & Pk & Fk). exists k. split; [apply Permutation_sym; exact Pk|].
  clear -F Fk E. revert k Fk. induction F as [|x y l b Rx F IH]; intros k Fk; inversion Fk; subst; constructor.
  - eapply E; [left; reflexivity|eassumption|eassumption].
  - apply IH; [|assumption]. intros x' z z' I. apply E. right. exact I.
Qed.

Lemma reordered_same cs cs' d h m h' m' : reordered cs cs' -> describes cs d -> as_described cs d h m -> as_described cs' (decl' cs' d) h' m' -> same_unordered h m h' m'.
Proof.
  intros ro de ad ad'. pose proof (described_again cs cs' d ro de) as de'. pose proof (same_features cs cs' d ro de) as PF.
  assert (LE := same_last_edge cs cs' ro). assert (RQ := same_request cs cs' d ro de). pose proof (same_constraints cs cs' ro) as PC.
  pose proof (Permutation_map f_name PF) as PN.
  assert (LAST : forall pr t, (forall c c' s s', In c cs -> In c' cs -> pr c = Some s -> pr c' = Some s' -> s = s') -> last_of pr cs' t = last_of pr cs t) by (intros; apply last_of_perm; [exact (ro_calls _ _ ro)|assumption]).
  assert (TX : forall k e c c', In (k, e) (constraints_of cs) -> links_to m e c -> links_to m' e c' -> same_text h h' c c').
  { intros k e c c' I L L'. exists (strings e). split; [exact (linked_spelled cs d h m ad e c (constraint_declared cs d de k e I) L)|].
    apply (linked_spelled cs' (decl' cs' d) h' m' ad' e c'); [|exact L']. apply (constraint_declared cs' (decl' cs' d) de' k e). apply (Permutation_in _ PC). exact I. }
  constructor.
  - rewrite (ad_name _ _ _ _ ad), (ad_name _ _ _ _ ad'). unfold last_name.
    transitivity (last_of (fun c => match c with BName s => Some s | _ => None end) cs' (T "FeatureModel")); [apply fold_ext; intros t []; reflexivity|].
    rewrite LAST; [apply fold_ext; intros t []; reflexivity|]. intros c c' s s' I I' X Y; destruct c; try discriminate; destruct c'; try discriminate. injection X as <-. injection Y as <-. exact (ro_names _ _ ro _ _ I I').
  - rewrite (ad_path _ _ _ _ ad), (ad_path _ _ _ _ ad'). unfold last_path.
    transitivity (last_of (fun c => match c with BPath s => Some s | _ => None end) cs' []); [apply fold_ext; intros t []; reflexivity|].
    rewrite LAST; [apply fold_ext; intros t []; reflexivity|]. intros c c' s s' I I' X Y; destruct c; try discriminate; destruct c'; try discriminate. injection X as <-. injection Y as <-. exact (ro_paths _ _ ro _ _ I I').
  - rewrite (ad_commit _ _ _ _ ad), (ad_commit _ _ _ _ ad'). unfold last_commit.
    transitivity (last_of (fun c => match c with BCommit s => Some s | _ => None end) cs' []); [apply fold_ext; intros t []; reflexivity|].
    rewrite LAST; [apply fold_ext; intros t []; reflexivity|]. intros c c' s s' I I' X Y; destruct c; try discriminate; destruct c'; try discriminate. injection X as <-. injection Y as <-. exact (ro_commits _ _ ro _ _ I I').
  - rewrite (ad_names _ _ _ _ ad), (ad_names _ _ _ _ ad'). cbn [fst snd decl']. apply perm_skip. apply Permutation_sym. exact PN.
  - destruct (ad_root _ _ _ _ ad) as (r & f & Er & Gr & _). destruct (ad_root _ _ _ _ ad') as (r' & f' & Er' & Gr' & _). exists (fst d). cbn [fst decl'] in Gr'. rewrite Er, Er'. repeat split; [exact Gr|exact Gr'|discriminate|discriminate].
  - intros s i i' f g G G' F F'. pose proof (declared_distinct cs d de) as ND. pose proof (declared_distinct cs' _ de') as ND'.
    assert (TR : forall x, FeatureBuildSpec.same_data x f -> FeatureBuildSpec.same_data x g -> same_data f g) by (unfold FeatureBuildSpec.same_data, same_data; intuition congruence).
    destruct (data_of cs d h m ad s i f G F) as [(-> & X)|(x & Ix & <- & X)]; destruct (data_of cs' _ h' m' ad' _ i' g G' F') as [(E & Y)|(y & Iy & E & Y)]; cbn [fst snd decl'] in *.
    + exact (TR _ X Y).
    + exfalso. apply NoDup_cons_iff in ND'. apply (proj1 ND'). rewrite <- E. apply in_map. exact Iy.
    + exfalso. apply NoDup_cons_iff in ND. apply (proj1 ND). rewrite <- E. apply in_map. exact Ix.
    + apply (Permutation_in _ (Permutation_sym PF)) in Iy. assert (x = y) as <-; [|exact (TR _ X Y)]. apply NoDup_cons_iff in ND. destruct ND as [_ ND]. clear -ND Ix Iy E.
      induction (snd d) as [|z l IH]; [contradiction|]. cbn [map] in ND. apply NoDup_cons_iff in ND. destruct ND as [N ND].
      destruct Ix as [->|Ix]; destruct Iy as [->|Iy]; [reflexivity| | |exact (IH ND Ix Iy)]; exfalso; apply N; [rewrite <- E|rewrite E]; apply in_map; assumption.
  - intros s u i i' p p' g Gi Gi' Gp Gp'. rewrite (hangs_named cs d h m ad s u i p g Gi Gp), (hangs_named cs' _ h' m' ad' s u i' p' g Gi' Gp'). cbn [fst snd decl']. rewrite LE, RQ.
    assert (In s (map f_name (snd d)) <-> In s (map f_name (features_of cs'))) as -> by (split; apply Permutation_in; [|apply Permutation_sym]; exact PN). reflexivity.
  - intros u p p' k G G'. rewrite (group_named cs d h m ad u p k G), (group_named cs' _ h' m' ad' u p' k G'). pose proof (same_requests cs cs' ro) as P. split; apply Permutation_in; [|apply Permutation_sym]; exact P.
  - rewrite (matched_length _ _ _ (ad_groups _ _ _ _ ad)), (matched_length _ _ _ (ad_groups _ _ _ _ ad')). apply Permutation_length. apply Permutation_sym. exact (same_requests cs cs' ro).
  - apply (orders_match _ _ _ _ _ _ _ (perm_flat_map _ _ _ PC) (ad_boolean _ _ _ _ ad) (ad_boolean _ _ _ _ ad')). intros e c c' I. apply in_flat_map in I. destruct I as ((k & e') & I & X). cbn [fst snd] in X.
    destruct k; try contradiction. destruct X as [<-|[]]. exact (TX _ _ c c' I).
  - apply (orders_match _ _ _ _ _ _ _ (perm_flat_map _ _ _ PC) (ad_nonboolean _ _ _ _ ad) (ad_nonboolean _ _ _ _ ad')). intros e c c' I. apply in_flat_map in I. destruct I as ((k & e') & I & X). cbn [fst snd] in X.
    destruct k; try contradiction. destruct X as [<-|[]]. exact (TX _ _ c c' I).
  - apply (orders_match _ _ _ _ _ _ _ (perm_flat_map _ _ _ PC) (ad_mixed _ _ _ _ ad) (ad_mixed _ _ _ _ ad')). intros ((r & k') & e) c c' I. apply in_flat_map in I. destruct I as ((k & e') & I & X). cbn [fst snd] in X.
    destruct k; try contradiction. destruct X as [X|[]]. injection X as <- <- <-. cbn [fst snd]. intros (L & R1 & K1) (L' & R2 & K2). split; [exact (TX _ _ _ _ I L L')|]. split; congruence.
Qed.

Theorem reordered_builds ord ord' h h0 cs cs' d : is_order ord -> is_order ord' -> heap_ok h -> heap_ok h0 -> describes cs d -> reordered cs cs' ->
  exists h1 m1 h2 m2, build_calls ord h cs = Some (h1, Some m1) /\ build_calls ord' h0 cs' = Some (h2, Some m2) /\
    same_unordered h1 m1 h2 m2 /\ forall a, SolverSpec.valid h1 m1 a <-> SolverSpec.valid h2 m2 a.
Proof.
  intros O O' K K' de ro. pose proof (described_again cs cs' d ro de) as de'.
  destruct (built ord O h cs d K de) as (h1 & m1 & B1 & A1 & _). destruct (built ord' O' h0 cs' _ K' de') as (h2 & m2 & B2 & A2 & _).
  destruct (built_valid ord h cs d O K de) as (x & y & E1 & V1). rewrite B1 in E1. injection E1 as <- <-. destruct (built_valid ord' h0 cs' _ O' K' de') as (x & y & E2 & V2). rewrite B2 in E2. injection E2 as <- <-.
  exists h1, m1, h2, m2. split; [exact B1|]. split; [exact B2|]. split; [exact (reordered_same cs cs' d h1 m1 h2 m2 ro de A1 A2)|].
  intros a. rewrite V1, V2. split; [apply configures_reordered; assumption|]. intros C. apply (configures_reordered cs' cs) in C; [|exact (reordered_back cs cs' ro)|exact de'].
  unfold decl' in C. cbn [fst] in C. rewrite <- (declared_features cs d de) in C. destruct d. exact C.
Qed.
