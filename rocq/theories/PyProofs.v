(** The Python builder. *)
From Coq Require Import List ZArith Arith Bool Ascii String Permutation Lia.
From Verif Require Import Text TextProofs ConstraintModel ConstraintSpec SourceRangeModel FeatureTreeModel FeatureTreeSpec FeatureTransactionModel FeatureEditSpec FeatureTransactionSpec FeatureTransactionFinal FeatureBuildSpec
  OutcomeSpec OutcomeProofs OutcomeFinal SolverModel SolverSpec DescribedSpec DescribedFinal EditCallModel EditCallSpec EditCallProofs PyModel PySpec FeatureTreeProofs FeatureEditProofs FeatureDataProofs FeatureOrderProofs FeatureHistoryProofs.
Import ListNotations.
Local Open Scope string_scope.
Local Open Scope list_scope.

(** ** From calls to calls *)
Lemma clone_spelled h c : forall e, spelled h c e -> clone_expr h c = Some e.
Proof.
  induction c as [o l IHl r IHr|o c IH|n|x]; intros e [S F].
  - destruct e as [o' l' r'| | |]; try discriminate. cbn [cmap] in S. injection S as <- Sl Sr. cbn [leaves] in F.
    assert (List.length (leaves l) = List.length (leaves l')) as Ln.
    { assert (List.length (leaves (cmap (fun _ => tt) l')) = List.length (leaves (cmap (fun _ => tt) l))) as X by (rewrite Sl; reflexivity). rewrite !leaves_cmap, !map_length in X. auto. }
    assert (A : Forall2 (fun r0 r'0 => exists s, FeatureEditSpec.mentions h r0 s /\ r'0 = Own s) (leaves l) (leaves l') /\ Forall2 (fun r0 r'0 => exists s, FeatureEditSpec.mentions h r0 s /\ r'0 = Own s) (leaves r) (leaves r')).
    { clear -F Ln. revert F Ln. generalize (leaves l) as a, (leaves l') as b. intros a. induction a as [|x a IH]; intros [|y b] F L; try discriminate; [split; [constructor|exact F]|].
      inversion F as [|? ? ? ? P Q]; subst. destruct (IH b Q) as [A B]; [cbn in L; lia|]. split; [constructor; assumption|exact B]. }
    cbn [clone_expr]. rewrite (IHl l' (conj Sl (proj1 A))), (IHr r' (conj Sr (proj2 A))). reflexivity.
  - destruct e as [|o' e| |]; try discriminate. cbn [cmap] in S. injection S as <- S. cbn [clone_expr]. rewrite (IH e (conj S F)). reflexivity.
  - destruct e; try discriminate. cbn [cmap] in S. injection S as <-. reflexivity.
  - destruct e as [| | |y]; try discriminate. cbn [leaves] in F. inversion F as [|? ? ? ? (s & M & ->) _]; subst. cbn [clone_expr].
    destruct x as [n|i]; cbn in M.
    + subst n. reflexivity.
    + destruct M as (f & Ff & <-). cbn [cref_name]. unfold name_at. rewrite Ff. reflexivity.
Qed.
Lemma called h p c : wants h p c -> py_call h p = Some (mandatory_call c).
Proof. destruct 1 as [s o|p s|p|p|c e S|c e S|s|s|s|s]; try reflexivity; cbn [py_call]; rewrite (clone_spelled h c e S); reflexivity. Qed.
Lemma all_called h ps cs : Forall2 (wants h) ps cs -> map_option (py_call h) ps = Some (map mandatory_call cs).
Proof. induction 1 as [|p c ps cs W F IH]; [reflexivity|]. cbn [map_option map]. rewrite (called h p c W). cbn [bind]. rewrite IH. reflexivity. Qed.

Lemma taken_mandatory d s : taken (mandatory_decl d) s <-> taken d s.
Proof. unfold taken, mandatory_decl. cbn [fst snd]. rewrite map_map. cbn [mandatory f_name]. reflexivity. Qed.
Lemma declares_mandatory d cs e : declares d cs e -> declares (mandatory_decl d) (map mandatory_call cs) (mandatory_decl e).
Proof.
  induction 1 as [d|root fs f cs d N D IH|root fs cs d D IH|root fs s cs d N D IH|d c cs e C D IH]; cbn [map].
  - constructor.
  - cbn [mandatory_call]. apply dec_feature; [intros X; apply N, taken_mandatory; exact X|]. unfold mandatory_decl in IH at 1. cbn [fst snd] in IH. rewrite map_app in IH. exact IH.
  - apply dec_same. exact IH.
  - apply dec_root; [intros X; apply N, taken_mandatory; exact X|exact IH].
  - destruct c; try contradiction; apply dec_other; exact I || exact IH.
Qed.
Lemma edge_mandatory d c : edge_ok (mandatory_decl d) (mandatory_call c) <-> edge_ok d c.
Proof. destruct c; cbn [mandatory_call edge_ok]; try tauto. rewrite !taken_mandatory. tauto. Qed.
Lemma relation_mandatory d c : relation_ok (mandatory_decl d) (mandatory_call c) <-> relation_ok d c.
Proof.
  destruct c; cbn [mandatory_call relation_ok]; try tauto; [apply taken_mandatory|]. unfold mentions_declared. split; intros H r I; destruct (H r I) as (s & E & X); exists s; split; auto; apply taken_mandatory; exact X.
Qed.
Lemma requests_mandatory cs : requests (map mandatory_call cs) = requests cs.
Proof. induction cs as [|c cs IH]; [reflexivity|]. unfold requests in *. cbn [map flat_map]. rewrite IH. destruct c; reflexivity. Qed.
Lemma last_edge_mandatory cs s : forall d, last_edge (map mandatory_call cs) s d = last_edge cs s d.
Proof. induction cs as [|c cs IH]; intros d; [reflexivity|]. destruct c; cbn [map mandatory_call last_edge]; apply IH. Qed.
Lemma in_mandatory (P : bcall -> Prop) (Q : bcall -> Prop) cs : (forall c, P (mandatory_call c) <-> Q c) -> (forall c, In c (map mandatory_call cs) -> P c) <-> (forall c, In c cs -> Q c).
Proof.
  intros E. split; intros H c I; [apply E, H, in_map, I|]. apply in_map_iff in I. destruct I as (x & <- & I). apply E, H, I.
Qed.
Lemma acceptable_mandatory cs d : acceptable cs d -> acceptable (map mandatory_call cs) (mandatory_decl d).
Proof.
  intros [D E R]. constructor; [exact (declares_mandatory (default_root, []) cs d D)| |].
  - exact (proj2 (in_mandatory _ _ cs (edge_mandatory d)) E).
  - exact (proj2 (in_mandatory _ _ cs (relation_mandatory d)) R).
Qed.
Lemma describes_mandatory cs d : describes cs d -> describes (map mandatory_call cs) (mandatory_decl d).
Proof.
  intros [D O E R Tr Rl G]. constructor.
  - exact (declares_mandatory (default_root, []) cs d D).
  - apply (proj2 (in_mandatory ordinary ordinary cs (fun c => match c with BFeature _ => conj (fun x => x) (fun x => x) | _ => conj (fun x => x) (fun x => x) end))). exact O.
  - exact (proj2 (in_mandatory _ _ cs (edge_mandatory d)) E).
  - intros p s I. apply in_map_iff in I. destruct I as (c & Ec & I). destruct c; cbn in Ec; try discriminate. injection Ec as -> ->. exact (R p s I).
  - intros f I. cbn [mandatory_decl snd] in I. apply in_map_iff in I. destruct I as (g & <- & I). cbn [mandatory_decl fst mandatory f_name].
    assert (A : forall s, leads (fun s => last_edge cs s (fst d)) (fst d) s -> leads (fun s => last_edge (map mandatory_call cs) s (fst d)) (fst d) s).
    { induction 1 as [|s L IH]; [constructor|]. apply leads_up. rewrite last_edge_mandatory. exact IH. }
    apply A. exact (Tr g I).
  - exact (proj2 (in_mandatory _ _ cs (relation_mandatory d)) Rl).
  - rewrite requests_mandatory. exact G.
Qed.
Lemma wants_regular h ps cs : Forall2 (wants h) ps cs -> NoDup (map fst (requests cs)) -> regular (map mandatory_call cs).
Proof.
  intros W G. assert (A : forall c, In c cs -> exists p, wants h p c).
  { induction W as [|p c ps cs Wc W IH]; [intros c []|]. intros x [<-|I]; [eauto|]. apply IH; [|exact I]. destruct c; cbn [requests flat_map app map] in G; try exact G. apply NoDup_cons_iff in G. tauto. }
  constructor.
  - intros c I. apply in_map_iff in I. destruct I as (x & <- & I). destruct (A x I) as (p & P). destruct P; cbn; try exact Logic.I. discriminate.
  - intros c I. apply in_map_iff in I. destruct I as (x & <- & I). destruct (A x I) as (p & P). destruct P as [ | | | |c e [_ F]|c e [_ F]| | | |]; cbn [mandatory_call by_name]; try exact Logic.I;
      (intros r J; clear -F J; induction F as [|y z l l' (s & _ & ->) F IH]; [destruct J|]; destruct J as [<-|J]; [eauto|exact (IH J)]).
  - rewrite requests_mandatory. exact G.
Qed.

Lemma declares_back cs : forall d e', declares (mandatory_decl d) (map mandatory_call cs) e' -> exists e, declares d cs e /\ e' = mandatory_decl e.
Proof.
  induction cs as [|c cs IH]; intros [root fs] e' D; cbn [map] in D.
  - inversion D. exists (root, fs). split; [constructor|reflexivity].
  - inversion D as [|r0 fs0 f cs0 d0 N D0 Ed Ec|r0 fs0 cs0 d0 D0 Ed Ec|r0 fs0 s cs0 d0 N D0 Ed Ec|d0 c0 cs0 e0 C D0 Ed Ec]; subst.
    + destruct c as [g| | | | | | |]; try discriminate. cbn [mandatory_call] in Ec. injection Ec as ->.
      destruct (IH (root, fs ++ [g]) e') as (e & De & ->); [unfold mandatory_decl; cbn [fst snd]; rewrite map_app; exact D0|]. exists e. split; [|reflexivity]. apply dec_feature; [|exact De].
      intros X. apply N. apply (taken_mandatory (root, fs)). exact X.
    + destruct c as [|s| | | | | |]; try discriminate. cbn [mandatory_call] in Ec. injection Ec as <-. destruct (IH (root, fs) e' D0) as (e & De & ->). exists e. split; [apply dec_same; exact De|reflexivity].
    + destruct c as [|s'| | | | | |]; try discriminate. cbn [mandatory_call] in Ec. injection Ec as <-. destruct (IH (s, fs) e' D0) as (e & De & ->). exists e. split; [|reflexivity]. apply dec_root; [|exact De].
      intros X. apply N. apply (taken_mandatory (root, fs)). exact X.
    + destruct (IH (root, fs) e' D0) as (e & De & ->). exists e. split; [|reflexivity]. apply dec_other; [|exact De]. destruct c; exact C.
Qed.
Lemma acceptable_back cs d' : acceptable (map mandatory_call cs) d' -> exists d, acceptable cs d.
Proof.
  intros [D E R]. destruct (declares_back cs (default_root, []) d' D) as (d & Dd & ->). exists d. constructor; [exact Dd| |].
  - exact (proj1 (in_mandatory _ _ cs (edge_mandatory d)) E).
  - exact (proj1 (in_mandatory _ _ cs (relation_mandatory d)) R).
Qed.
Lemma misgrouped_mandatory cs : misgrouped (map mandatory_call cs) <-> misgrouped cs.
Proof.
  split.
  - intros (d' & a' & k & p & b' & Ec & D & E & R & N). destruct (declares_back cs (default_root, []) d' D) as (d & Dd & ->).
    apply map_eq_app in Ec. destruct Ec as (a & b & -> & <- & Eb). destruct b as [|c b]; [discriminate|]. cbn [map] in Eb. injection Eb as Ec Eb. destruct c; cbn [mandatory_call] in Ec; try discriminate. injection Ec as -> ->.
    exists d, a, k, p, b. split; [reflexivity|]. split; [exact Dd|]. split; [exact (proj1 (in_mandatory _ _ _ (edge_mandatory d)) E)|]. split; [exact (proj1 (in_mandatory _ _ a (relation_mandatory d)) R)|].
    intros X. apply N, taken_mandatory, X.
  - intros (d & a & k & p & b & -> & D & E & R & N). exists (mandatory_decl d), (map mandatory_call a), k, p, (map mandatory_call b). split; [rewrite map_app; reflexivity|].
    split; [exact (declares_mandatory (default_root, []) _ d D)|]. split; [exact (proj2 (in_mandatory _ _ _ (edge_mandatory d)) E)|]. split; [exact (proj2 (in_mandatory _ _ a (relation_mandatory d)) R)|].
    intros X. apply N, taken_mandatory, X.
Qed.

(** ** Outcomes *)
Section Order.
Variable ord : list nid -> list nid.
Hypothesis ord_ok : is_order ord.

Lemma python_built h ps cs d : heap_ok h -> Forall2 (wants h) ps cs -> NoDup (map fst (requests cs)) -> acceptable cs d ->
  exists h' m', py_build ord h ps = Some (h', Some m') /\ linked_as (map mandatory_call cs) (mandatory_decl d) h' m' /\
    forall f, In f (snd d) -> exists i g, get_feature m' (f_name f) = Some i /\ feature_at h' i = Some g /\ f_kind g = f_kind f /\ f_optional g = false.
Proof.
  intros K W G A. destruct (accepted_builds ord ord_ok h _ _ K (wants_regular h ps cs W G) (acceptable_mandatory cs d A)) as (h' & m' & E & L & _).
  exists h', m'. split; [unfold py_build; rewrite (all_called h ps cs W); exact E|]. split; [exact L|]. intros f I.
  destruct (la_data _ _ _ _ L (mandatory f)) as (i & g & Gi & Fg & Sk & _ & _ & _ & So); [apply in_map; exact I|]. exists i, g. auto.
Qed.
Lemma python_configurations h ps cs d : heap_ok h -> Forall2 (wants h) ps cs -> describes cs d ->
  exists h' m', py_build ord h ps = Some (h', Some m') /\ forall a, SolverSpec.valid h' m' a <-> configures (map mandatory_call cs) (mandatory_decl d) (requested cs) a.
Proof.
  intros K W D. destruct (built_valid ord h _ _ ord_ok K (describes_mandatory cs d D)) as (h' & m' & E & V). exists h', m'. split; [unfold py_build; rewrite (all_called h ps cs W); exact E|].
  unfold requested in *. rewrite requests_mandatory in V. exact V.
Qed.
Lemma python_null h ps cs : heap_ok h -> Forall2 (wants h) ps cs -> NoDup (map fst (requests cs)) -> (forall d, ~ acceptable cs d) -> ~ misgrouped cs -> exists h', py_build ord h ps = Some (h', None).
Proof.
  intros K W G A M. unfold py_build. rewrite (all_called h ps cs W). cbn [bind]. apply (otherwise_null ord ord_ok h _ K (wants_regular h ps cs W G)).
  - intros d' X. destruct (acceptable_back cs d' X) as (d & Y). exact (A d Y).
  - intros X. apply M, misgrouped_mandatory, X.
Qed.
Lemma python_misgrouped h ps cs : heap_ok h -> Forall2 (wants h) ps cs -> NoDup (map fst (requests cs)) -> misgrouped cs -> py_build ord h ps = None.
Proof.
  intros K W G M. unfold py_build. rewrite (all_called h ps cs W). cbn [bind]. apply (misgrouped_undefined ord ord_ok h _ K (wants_regular h ps cs W G)). apply misgrouped_mandatory, M.
Qed.
Lemma unknown_relation h ps p s : In (PyGroup p s) ps -> s <> T "OR" -> s <> T "XOR" -> py_build ord h ps = None.
Proof.
  intros I N1 N2. unfold py_build. assert (map_option (py_call h) ps = None) as ->; [|reflexivity]. induction ps as [|c ps IH]; [destruct I|]. cbn [map_option]. destruct I as [->|I].
  - cbn [py_call]. destruct (text_eqb s (T "OR")) eqn:E; [apply text_eqb_eq in E; contradiction|]. destruct (text_eqb s (T "XOR")) eqn:E2; [apply text_eqb_eq in E2; contradiction|]. reflexivity.
  - rewrite (IH I). destruct (py_call h c); reflexivity.
Qed.
Lemma python_undefined h ps : heap_ok h ->
  (exists p s, In (PyGroup p s) ps /\ s <> T "OR" /\ s <> T "XOR") \/ (exists cs, Forall2 (wants h) ps cs /\ NoDup (map fst (requests cs)) /\ misgrouped cs) ->
  py_build ord h ps = None.
Proof.
  intros K [(p & s & I0 & N1 & N2)|(cs & W & G & M)]; [exact (unknown_relation h ps p s I0 N1 N2)|exact (python_misgrouped h ps cs K W G M)].
Qed.
End Order.

(** ** Adding features *)
Lemma edited_subtree p g t s : subtree s t -> rid s = p -> NoDup (ids t) -> subtree (g s) (edit p g t).
Proof.
  intros S1 <- D. induction S1 as [|n d ts t It S1 IH].
  - rewrite edit_top by reflexivity. constructor.
  - cbn [edit]. destruct (Nat.eqb_spec n (rid s)) as [E|N].
    + exfalso. cbn [ids] in D. apply NoDup_cons_iff in D. apply (proj1 D). rewrite E. apply in_flat_map. exists t. split; [exact It|]. apply (subtree_ids s t _ S1). destruct s. left. reflexivity.
    + apply sub_kid with (edit (rid s) g t); [apply in_map; exact It|]. apply IH. exact (subtree_nodup t _ (sub_kid t n d ts t It (sub_refl t)) D).
Qed.
Lemma adds ord h m t p f : represents h m t -> In p (map snd (m_features m)) -> get_feature m (f_name f) = None -> f_kind f <> FRoot ->
  exists h' m' i, call_add_feature ord f (Some p) (h, m) = Some (h', m') /\ get_feature m' (f_name f) = Some i /\ feature_at h' i = Some f /\ parent_feature h' i = Some (Some p) /\ tree_shaped h' m'.
Proof.
  intros R I G K. destruct (proj2 (add_feature_call ord h m t f (Some p) R K ltac:(intros q [= <-]; exact I)) G) as (h' & m' & i & E & Fr & R' & _ & _ & Fe).
  exists h', m', i. split; [exact E|]. destruct (rep_resolve R (ByPtr p) p I eq_refl) as (s & g & Ss & <- & Dg). cbn beta iota in R'.
  set (u := Node i (NFeature f) []) in *. pose proof (edited_subtree (rid s) (add_kid u) t s Ss eq_refl (rep_ids _ _ _ R)) as Se.
  assert (subtree u (edit (rid s) (add_kid u) t)) as Su.
  { refine (subtree_trans _ _ _ _ Se). unfold add_kid, with_kids. apply sub_kid with u; [|constructor]. apply in_or_app. right. left. reflexivity. }
  assert (get_feature m' (f_name f) = Some i) as Gi.
  { apply (rep_find R'). apply named_subtree. exists u, f. repeat split; auto. }
  split; [exact Gi|]. split; [exact (rep_feature_at _ _ _ u f R' Su eq_refl)|]. split; [|exact (represents_tree_shaped _ _ _ R')].
  destruct (holds_sub h' None _ _ (rep_holds _ _ _ R') Se) as (q & Hs). pose proof (subtree_nodup _ _ Se (rep_ids _ _ _ R')) as Ds.
  unfold add_kid, with_kids in Hs, Ds. apply (parent_feature_near h' q (rid s) (rdata s) (kids s ++ [u]) u (rep_ok _ _ _ R') Hs Ds).
  - rewrite Dg. reflexivity.
  - unfold near. rewrite flat_map_app. apply in_or_app. right. cbn. left. reflexivity.
Qed.
Lemma python_adds ord h m t p s k opt locs : represents h m t -> In p (map snd (m_features m)) -> get_feature m s = None -> (k = FBinary \/ exists v, k = FNumeric v None) ->
  exists h' m' i g, (match k with FNumeric v _ => py_add_numeric ord p s v opt locs (h, m) | _ => py_add_binary ord p s opt locs (h, m) end) = Some (h', m') /\
    get_feature m' s = Some i /\ feature_at h' i = Some g /\ f_kind g = k /\ f_optional g = opt /\ f_locations g = locs /\ parent_feature h' i = Some (Some p) /\ tree_shaped h' m'.
Proof.
  intros R I G K. destruct (adds ord h m t p (new_feature k s opt locs []) R I G) as (h' & m' & i & E & E2 & E3 & E4 & E5).
  { destruct K as [->|(v & ->)]; discriminate. }
  exists h', m', i, (new_feature k s opt locs []). split; [|split; [exact E2|split; [exact E3|split; [reflexivity|split; [reflexivity|split; [reflexivity|split; assumption]]]]]]. destruct K as [->|(v & ->)]; exact E.
Qed.
Lemma python_removes ord (ord_ok : is_order ord) h m t s f b : represents h m t -> subtree s t -> rdata s = NFeature f ->
  (b = false -> near (kids s) <> [] -> py_remove ord (rid s) b (h, m) = Some (h, m)) /\
  (b = true \/ near (kids s) = [] -> rid s <> rid t -> exists h' m', py_remove ord (rid s) b (h, m) = Some (h', m') /\ represents h' m' (prune (rid s) t) /\
     forall i, In i (nodes m') <-> In i (nodes m) /\ ~ In i (ids s)) /\
  (b = true \/ near (kids s) = [] -> rid s = rid t -> py_remove ord (rid s) b (h, m) = None).
Proof.
  intros R S1 D. assert (In (rid s) (map snd (m_features m))) as I1.
  { pose proof (rep_features _ _ _ R) as Pm. apply in_map_iff. exists (f_name f, rid s). split; [reflexivity|]. eapply Permutation_in; [apply Permutation_sym; exact Pm|]. apply named_subtree. exists s, f. auto. }
  destruct (remove_feature_call ord ord_ok h m t (ByPtr (rid s)) b R I1) as (_ & H). destruct (H s S1 eq_refl) as (A & B & C). split; [exact A|]. split; [|exact C].
  intros X Y. destruct (B X Y) as (h' & m' & E & R' & _ & N). exists h', m'. auto.
Qed.
Lemma python_commit ord h m t s : represents h m t ->
  exists m', py_set_commit ord s (h, m) = Some (h, m') /\ m_commit m' = s /\ m_name m' = m_name m /\ m_path m' = m_path m /\ same_contents m m'.
Proof.
  intros R. destruct (set_commit_call ord h m t s R) as (m' & A & B & C & D & E & _). exists m'. auto.
Qed.
