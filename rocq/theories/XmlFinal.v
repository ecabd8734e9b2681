(** What the XML reader yields. *)
From Coq Require Import List ZArith NArith Arith Bool Ascii String Permutation Lia.
From Verif Require Import Text TextProofs LlvmInt ConstraintModel ConstraintParserModel ConstraintSpec SourceRangeModel StepFunctionModel FeatureTreeModel FeatureTreeSpec FeatureTransactionModel
  FeatureTransactionSpec FeatureEditSpec FeatureCloneSpec FeatureBuildSpec FeatureBuildProofs FeatureBuildFinal SxfmModel XmlModel XmlSpec XmlEnrollProofs XmlDetectProofs XmlDetectFinal XmlReadProofs.
Import ListNotations.
Local Open Scope string_scope.
Local Open Scope list_scope.
Local Open Scope nat_scope.

(** ** The calls of a document *)
(** No group is requested, and a declared feature takes part in no constraint yet. *)
Definition plain_call (c : bcall) : Prop :=
  match c with BRelationship _ _ => False | BFeature f => f_constraints f = [] /\ f_excludes f = [] /\ f_implications f = [] | _ => True end.

Section Calls.
Variables (sci : text -> option text) (step : text -> sx (option (Z -> option Z))).
Lemma part_plain n c : Forall plain_call (part_calls n c).
Proof.
  unfold part_calls. repeat match goal with |- context[if ?b then _ else _] => destruct b end;
    repeat constructor; apply Forall_forall; intros x I; apply in_map_iff in I; destruct I as (y & <- & _); exact I.
Qed.
Lemma option_plain num e l : option_stands sci step num e l -> Forall plain_call l.
Proof.
  intros (rs & fs & _ & _ & ->). apply Forall_app. split.
  - apply Forall_flat_map. apply Forall_forall. intros c _. apply part_plain.
  - constructor; [|constructor]. unfold option_call. destruct (_ || _); cbn; auto.
Qed.
Lemma concat_plain {A} (P : A -> list bcall -> Prop) es l : (forall e x, P e x -> Forall plain_call x) -> Forall2 P es l -> Forall plain_call (List.concat l).
Proof. intros N F. induction F as [|e x es l H F IH]; [constructor|]. cbn. apply Forall_app. split; [exact (N _ _ H)|exact IH]. Qed.
Lemma section_plain e l : section_stands sci step e l -> Forall plain_call l.
Proof.
  unfold section_stands. intros X. destruct (is_tag "binaryOptions" e).
  { destruct X as (y & F & ->). exact (concat_plain _ _ _ (option_plain false) F). }
  destruct (is_tag "numericOptions" e).
  { destruct X as (y & F & ->). exact (concat_plain _ _ _ (option_plain true) F). }
  assert (One : forall (P : xml -> bcall -> Prop), (forall c b, P c b -> plain_call b) -> Forall2 P (elems e) l -> Forall plain_call l).
  { clear X. intros P N F. induction F as [|c b es l' H F IH]; constructor; eauto. }
  assert (Pl : forall k c b, plain_stands sci k c b -> plain_call b) by (intros k c b (x & _ & ->); exact I).
  destruct (is_tag "booleanConstraints" e); [exact (One _ (Pl KBoolean) X)|]. destruct (is_tag "nonBooleanConstraints" e); [exact (One _ (Pl KNonBoolean) X)|].
  destruct (is_tag "mixedConstraints" e); [|subst l; constructor]. refine (One _ _ X). intros c b (x & r & k & _ & _ & _ & ->). exact I.
Qed.
Lemma stands_plain cwd e cs : stands sci step cwd e cs -> Forall plain_call cs.
Proof. intros (l & F & _ & ->). repeat (constructor; [exact I|]). exact (concat_plain _ _ _ section_plain F). Qed.
Lemma plain_requests cs : Forall plain_call cs -> requests cs = [].
Proof. intros F. induction F as [|c cs P F IH]; [reflexivity|]. unfold requests in *. cbn [flat_map]. rewrite IH. destruct c; try reflexivity. destruct P. Qed.
Lemma plain_unregistered cs : Forall plain_call cs -> unregistered cs.
Proof. intros F f I. rewrite Forall_forall in F. exact (proj2 (F _ I)). Qed.
End Calls.

(** ** Reading *)
(** What is requested for a feature once the alternatives are known. *)
Lemma requests_at cs ps : requests cs = [] -> requests (cs ++ groups_at ps) = map (fun s => (s, RAlternative)) ps.
Proof. intros E. unfold requests in *. rewrite flat_map_app, E. cbn. unfold groups_at. induction ps as [|p ps IH]; [reflexivity|]. cbn. rewrite IH. reflexivity. Qed.
Lemma request_at s : forall ps, request_for (map (fun s => (s, RAlternative)) ps) s = Some RAlternative /\ In s ps \/ request_for (map (fun s => (s, RAlternative)) ps) s = None /\ ~ In s ps.
Proof.
  induction ps as [|p ps IH]; [right; split; [reflexivity|intros []]|]. cbn [map request_for]. destruct (text_eqb p s) eqn:E.
  - apply text_eqb_eq in E. left. split; [reflexivity|left; exact E].
  - apply text_eqb_neq in E. destruct IH as [(-> & I)|(-> & N)]; [left; split; [reflexivity|right; exact I]|right; split; [reflexivity|intros [->|I]; auto]].
Qed.

Section Read.
Variables (ord : list nid -> list nid) (sci : text -> option text) (step : text -> sx (option (Z -> option Z))).
Hypothesis ord_ok : is_order ord.

Theorem document_means cwd h e cs d : heap_ok h -> valid e = true -> stands sci step cwd e cs -> describes cs d ->
  exists h' m' ps, read_xml ord sci step cwd h e = SxDone (h', Some m') /\ heap_ok h' /\ NoDup ps /\ (forall s, In s ps <-> taken d s /\ alternatives cs d s) /\
    as_described (cs ++ groups_at ps) d h' m' /\ describes (cs ++ groups_at ps) d /\ enrolled h' m' /\ all_resolved m'.
Proof.
  intros K V S D. pose proof (stands_plain sci step cwd e cs S) as P.
  destruct (searched ord ord_ok h cs d K D (plain_requests _ P) (plain_unregistered _ P)) as (h1 & m1 & h2 & m2 & ps & B & E & N & Sp & D2 & A2 & K2 & En & Rs).
  exists h2, m2, ps. split; [|tauto]. unfold read_xml. rewrite V. apply (read_vm_iff sci step cwd e cs V) in S. rewrite S. cbn [sx_bind]. rewrite B, E. reflexivity.
Qed.

(** Nothing is read from other documents. *)
Theorem document_needed cwd h e r : read_xml ord sci step cwd h e = SxDone r -> valid e = true /\ exists cs, stands sci step cwd e cs.
Proof.
  unfold read_xml. destruct (valid e) eqn:V; [|discriminate]. intros E. apply sx_bind_done in E. destruct E as (cs & E & _). apply (read_vm_iff sci step cwd e cs V) in E. eauto.
Qed.

Theorem alternatives_found cwd h e cs d : heap_ok h -> valid e = true -> stands sci step cwd e cs -> describes cs d ->
  exists h' m', read_xml ord sci step cwd h e = SxDone (h', Some m') /\
    forall s p, get_feature m' s = Some p ->
      (group_of h' m' p RAlternative <-> exclusive_children h' m' p) /\ ~ group_of h' m' p ROr /\
      forall i, child_in h' m' p i -> (exclusive_children h' m' p -> hangs h' i p (Some RAlternative)) /\ (~ exclusive_children h' m' p -> hangs h' i p None).
Proof.
  intros K V S D. destruct (document_means cwd h e cs d K V S D) as (h' & m' & ps & E & K' & N & Sp & A & D2 & _). exists h', m'. split; [exact E|]. intros s p G.
  pose proof (plain_requests _ (stands_plain sci step cwd e cs S)) as Rq. pose proof (requests_at cs ps Rq) as Ra.
  assert (Al : forall s, alternatives (cs ++ groups_at ps) d s <-> alternatives cs d s).
  { intros x. unfold alternatives, below, excluding.
    assert (Le : forall y z, last_edge (cs ++ groups_at ps) y z = last_edge cs y z) by (intros; apply last_edge_groups).
    assert (Ex : forall c, (exists k, In (BConstraint k c) (cs ++ groups_at ps)) <-> exists k, In (BConstraint k c) cs).
    { intros c. split; intros (k & I); exists k; [|apply in_or_app; left; exact I]. apply in_app_or in I. destruct I as [I|I]; [exact I|]. unfold groups_at in I. apply in_map_iff in I. destruct I as (y & X & _). discriminate. }
    split; intros ((f & g & Bf & Bg & Nfg) & X); (split; [exists f, g; rewrite !Le in *; auto|]; intros f' Bf'; rewrite ?Le in *; destruct (X f') as (X1 & X2); [rewrite ?Le; exact Bf'|]; split; [exact X1|];
      intros g' Bg' Ng'; apply Ex; apply X2; [rewrite ?Le in *; exact Bg'|exact Ng']). }
  assert (Ps : exclusive_children h' m' p <-> In s ps).
  { rewrite (exclusive_described _ _ _ _ D2 A s p G), Al, Sp. split; [|tauto]. intros X. split; [|exact X]. apply (get_taken _ _ _ _ A). eauto. }
  pose proof (ad_groups _ _ _ _ A) as Gr. rewrite Ra in Gr.
  assert (In1 : forall q c k, In q (m_relationships m') -> h_cells h' q = Some c -> n_data c = NRelationship k -> n_parent c = Some p -> k = RAlternative /\ In s ps).
  { intros q c k Iq C Dc Pc. destruct (forall2_left _ _ _ Gr q Iq) as ((s' & k') & Ir & (c' & C' & Dc' & Pc')). cbn [fst snd] in *. apply in_map_iff in Ir. destruct Ir as (x & Ex & Ix). injection Ex as -> <-.
    assert (c' = c) by congruence. subst c'. split; [congruence|]. rewrite Pc in Pc'. symmetry in Pc'. rewrite (get_inj _ _ _ _ A s s' p G Pc'). exact Ix. }
  split; [|split].
  - rewrite Ps. split.
    + intros (q & c & Iq & C & Dc & Pc). exact (proj2 (In1 q c _ Iq C Dc Pc)).
    + intros Is. destruct (forall2_right _ _ _ Gr (s, RAlternative)) as (q & Iq & c & C & Dc & Pc); [apply in_map_iff; eauto|]. exists q, c. cbn [fst snd] in *. rewrite G in Pc. auto.
  - intros (q & c & Iq & C & Dc & Pc). destruct (In1 q c _ Iq C Dc Pc) as (X & _). discriminate.
  - intros i Ci. apply (child_below _ _ _ _ A s p i G) in Ci. destruct Ci as (f & (If & Ef) & Gf).
    destruct (ad_parents _ _ _ _ A f If) as (j & p' & Gj & Gp & Hg). rewrite Ef in *. assert (j = i) by congruence. assert (p' = p) by congruence. subst j p'.
    rewrite Ra in Hg. rewrite Ps. destruct (request_at s ps) as [(X & Is)|(X & Is)]; rewrite X in Hg; split; intros Y; auto; contradiction.
Qed.
End Read.
