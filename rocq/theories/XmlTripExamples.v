(** Examples for writing a model and reading it back. *)
From Coq Require Import List ZArith NArith Arith Bool Ascii String Permutation Lia.
From Verif Require Import Text TextProofs NumSpec LlvmInt ConstraintModel ConstraintParserModel ConstraintSpec ConstraintRoundTrip SourceRangeModel FeatureTreeModel FeatureTreeSpec FeatureTreeExamples FeatureTransactionModel
  FeatureTransactionSpec FeatureEditSpec FeatureEditProofs FeatureTransactionExamples FeatureCloneSpec FeatureBuildSpec FeatureBuildExamples SxfmModel SxfmExamples XmlModel XmlWriterModel XmlSpec XmlDetectFinal XmlFinal XmlExamples
  XmlTripSpec XmlTripFinal.
Import ListNotations.
Local Open Scope string_scope.
Local Open Scope list_scope.
Local Open Scope nat_scope.

(** Root with an or-group of a and b, and the numeric n below a; n implies a, a or b,
    n is at least 1. *)
Definition place11 : source_range := SourceRange (T "a.c") (Some (Loc 3 4)) (Some (Loc 3 9)) Inessential None (Some (Revisions (T "0f") None)).
Definition a11 : feature := Feature FBinary (T "a") (T "-a") [place11] [] [] [10] false.
Definition n11 : feature := Feature (FNumeric (VList [1; 4294967301; 4294967302]%Z) None) (T "n") [] [] [] [13] [10] true.
Definition b11 : feature := Feature FBinary (T "b") [] [] [] [13] [] false.
Definition tree11 : tree := Node 0 (rootd "base") [Node 1 (NRelationship ROr) [Node 2 (NFeature a11) [Node 4 (NFeature n11) []]; Node 3 (NFeature b11) []]].
Definition heap11 : heap := plant 20 tree11.
Definition model11 : fmodel := FModel (T "m") (Some 0) (T "p") (T "c0") (named tree11)
  [MConstraint 10 (CBin BImplies (CFeat (Ref 4)) (CFeat (Ref 2))); MConstraint 11 (CBin BOr (CFeat (Ref 2)) (CFeat (Ref 3)))]
  [MConstraint 12 (CBin BGreaterEqual (CFeat (Ref 4)) (CInt 1))]
  [Mixed (MConstraint 13 (CBin BExcludes (CFeat (Ref 3)) (CBin BGreater (CFeat (Ref 4)) (CInt 2)))) ReqNone ExprNeg] [1].
Lemma represents11 : represents heap11 model11 tree11.
Proof. assert (represents heap11 (model_of tree11) tree11) as R by planted. destruct R; constructor; assumption. Qed.
Lemma features11 s i f : get_feature model11 s = Some i -> feature_at heap11 i = Some f ->
  s = f_name f /\ (i = 0 /\ f = root_feature (T "base") \/ i = 2 /\ f = a11 \/ i = 4 /\ f = n11 \/ i = 3 /\ f = b11).
Proof.
  intros G F. unfold get_feature in G. apply find_name_in in G; [|cbn; repeat (constructor; [cbn; intuition congruence|]); constructor].
  cbn in G. repeat (destruct G as [E|G]; [injection E as <- <-; cbn in F; injection F as <-; split; [reflexivity|tauto]|]). destruct G.
Qed.
Lemma enrolled11 : enrolled heap11 model11.
Proof.
  constructor.
  - cbn. repeat (constructor; [cbn; intuition congruence|]). constructor.
  - intros c I. cbn in I. repeat (destruct I as [<-|I]; [cbn; lia|]). destruct I.
  - intros s i f id G F. destruct (features11 s i f G F) as (_ & X). unfold mentioned. split.
    + intros I. exists (MConstraint 13 (CBin BExcludes (CFeat (Ref 3)) (CBin BGreater (CFeat (Ref 4)) (CInt 2)))).
      destruct X as [(-> & ->)|[(-> & ->)|[(-> & ->)|(-> & ->)]]]; cbn in I; try contradiction; destruct I as [<-|[]]; cbn; auto 8.
    + intros (c & I & E & Cl & J). cbn in I. repeat (destruct I as [<-|I]; [cbn in E, Cl, J; first [discriminate|idtac]|]); [|destruct I].
      destruct X as [(-> & ->)|[(-> & ->)|[(-> & ->)|(-> & ->)]]]; cbn in J; subst id; cbn; auto; repeat (destruct J as [J|J]; [discriminate|]); destruct J.
  - intros s i f id G F. destruct (features11 s i f G F) as (_ & X). unfold mentioned. split.
    + intros I. exists (MConstraint 10 (CBin BImplies (CFeat (Ref 4)) (CFeat (Ref 2)))).
      destruct X as [(-> & ->)|[(-> & ->)|[(-> & ->)|(-> & ->)]]]; cbn in I; try contradiction; destruct I as [<-|[]]; cbn; auto 8.
    + intros (c & I & E & Cl & J). cbn in I. repeat (destruct I as [<-|I]; [cbn in E, Cl, J; first [discriminate|idtac]|]); [|destruct I].
      destruct X as [(-> & ->)|[(-> & ->)|[(-> & ->)|(-> & ->)]]]; cbn in J; subst id; cbn; auto; repeat (destruct J as [J|J]; [discriminate|]); destruct J.
Qed.
Lemma resolved11 : all_resolved model11.
Proof.
  intros c r I J. cbn in I. repeat (destruct I as [<-|I]; [cbn in J; repeat (destruct J as [<-|J]; [first [exists (T "a"), 2; split; reflexivity|exists (T "b"), 3; split; reflexivity|exists (T "n"), 4; split; reflexivity]|]); destruct J|]). destruct I.
Qed.
Lemma letter s c : T s = [c] -> is_alpha c = true -> identifier s.
Proof. intros E A. exists c, []. split; [exact E|]. split; [exact A|]. split; [constructor|]. intros ->. discriminate. Qed.
Lemma writable11 : writable heap11 model11.
Proof.
  assert (Ia : identifier "a") by (eapply letter; reflexivity). assert (Ib : identifier "b") by (eapply letter; reflexivity). assert (Inn : identifier "n") by (eapply letter; reflexivity).
  assert (Sa : spelled heap11 (CFeat (Ref 2)) (CFeat "a")) by (constructor; exists a11; split; reflexivity). assert (Sb : spelled heap11 (CFeat (Ref 3)) (CFeat "b")) by (constructor; exists b11; split; reflexivity).
  assert (Sn : spelled heap11 (CFeat (Ref 4)) (CFeat "n")) by (constructor; exists n11; split; reflexivity).
  constructor.
  - intros s i f G F. destruct (features11 s i f G F) as (_ & X). destruct X as [(-> & ->)|[(-> & ->)|[(-> & ->)|(-> & ->)]]]; (split; [discriminate|]); (split; [reflexivity|]); split; cbn.
    + exact Logic.I.
    + constructor.
    + exact Logic.I.
    + constructor; [|constructor]. split; [reflexivity|]. exists (Loc 3 4), (Loc 3 9). split; [reflexivity|]. split; [reflexivity|]. split; split; reflexivity.
    + split; [discriminate|]. repeat constructor; unfold is_int64, int64_min, int64_max; lia.
    + constructor.
    + exact Logic.I.
    + constructor.
  - intros s i G. assert (exists f, feature_at heap11 i = Some f) as (f & F).
    { unfold get_feature in G. apply find_name_in in G; [|cbn; repeat (constructor; [cbn; intuition congruence|]); constructor]. cbn in G. repeat (destruct G as [E|G]; [injection E as <- <-; eexists; reflexivity|]). destruct G. }
    destruct (features11 s i f G F) as (-> & X). destruct X as [(-> & ->)|[(-> & ->)|[(-> & ->)|(-> & ->)]]]; cbn; split; try discriminate; auto; intros [X|X]; discriminate.
  - intros s i f G F. destruct (features11 s i f G F) as (_ & X). destruct X as [(-> & ->)|[(-> & ->)|[(-> & ->)|(-> & ->)]]]; cbn; split; try discriminate; auto.
  - reflexivity.
  - reflexivity.
  - reflexivity.
  - intros c I. cbn in I. destruct I as [<-|[<-|[]]]; [left; eexists BImplies, _, _; split; [auto|reflexivity]|right]. exists (CBin BOr (CFeat "a") (CFeat "b")). split; [constructor; assumption|]. cbn. repeat (split; [discriminate|]). auto.
  - intros c I. cbn in I. destruct I as [<-|[]]. exists (CBin BGreaterEqual (CFeat "n") (CInt 1)). split; [constructor; [assumption|constructor]|]. cbn. repeat (split; [discriminate|]). split; [exact Inn|]. unfold int64_max; lia.
  - intros x I. cbn in I. destruct I as [<-|[]]. exists (CBin BExcludes (CFeat "b") (CBin BGreater (CFeat "n") (CInt 2))). split; [repeat (constructor; auto)|]. cbn. repeat (split; [discriminate|]). split; [exact Ib|]. repeat (split; [discriminate|]). split; [exact Inn|]. unfold int64_max; lia.
Qed.
Lemma no_sci_ok : sci_nonneg no_sci.
Proof. intros t d X. discriminate X. Qed.

(** Reading the written model: the group, the values, the output string and the mixed
    constraint that come back. *)
(** Another order, for reading. *)
Lemma kept_order : is_order (fun l : list nid => l).
Proof. intros l. reflexivity. Qed.
Definition again : option (heap * fmodel) := let* doc := write_xml order heap11 model11 in outcome (read_xml order no_sci no_step (T "/tmp") heap0 doc).
Lemma trip_example :
  is_order order /\ sci_nonneg no_sci /\ represents heap11 model11 tree11 /\ enrolled heap11 model11 /\ all_resolved model11 /\ writable heap11 model11 /\ heap_ok heap0 /\
  (let* (h, m) := again in
   let* a := get_feature m (T "a") in let* n := get_feature m (T "n") in let* f := feature_at h a in let* g := feature_at h n in
   let* c := h_cells h a in let* q := n_parent c in let* d := h_cells h q in let* p := n_parent d in let* s := name_at h p in
   Some (s, n_data d, f_locations f, f_output f, f_optional g, f_kind g, (m_path m, m_commit m)))
  = Some (T "base", NRelationship RAlternative, [SourceRange (T "a.c") (Some (Loc 3 4)) (Some (Loc 3 9)) Inessential None None], [], true, FNumeric (VList [1; 5; 4294967302]%Z) None, (T "p", T "c0")) /\
  (let* (h, m) := again in let* c := map_option (fun x => constraint_text h (x_con x)) (m_mixed m) in let* b := map_option (constraint_text h) (m_boolean m) in Some (map U b, map U c)) =
  Some (["(a => !b)"; "(b => !a)"; "(n => a)"; "(a | b)"], ["(b => !(n > 2))"]).
Proof.
  split; [exact order_ok|]. split; [exact no_sci_ok|]. split; [exact represents11|]. split; [exact enrolled11|]. split; [exact resolved11|]. split; [exact writable11|]. split; [exact heap0_ok|].
  split; vm_compute; reflexivity.
Qed.

(** What is not kept although the model can be written: an or-group, and values. *)
Lemma not_kept : exists h m t, represents h m t /\ enrolled h m /\ all_resolved m /\ writable h m /\
  (exists s p, get_feature m s = Some p /\ group_of h m p ROr /\
    forall ord ord' sci step cwd h0 doc h' m', is_order ord -> is_order ord' -> sci_nonneg sci -> heap_ok h0 -> write_xml ord h m = Some doc -> read_xml ord' sci step cwd h0 doc = SxDone (h', Some m') ->
      exists p', get_feature m' s = Some p' /\ ~ group_of h' m' p' ROr) /\
  (exists s i f, get_feature m s = Some i /\ feature_at h i = Some f /\
    forall ord ord' sci step cwd h0 doc h' m', is_order ord -> is_order ord' -> sci_nonneg sci -> heap_ok h0 -> write_xml ord h m = Some doc -> read_xml ord' sci step cwd h0 doc = SxDone (h', Some m') ->
      exists i' g, get_feature m' s = Some i' /\ feature_at h' i' = Some g /\ f_kind g <> f_kind f).
Proof.
  exists heap11, model11, tree11. split; [exact represents11|]. split; [exact enrolled11|]. split; [exact resolved11|]. split; [exact writable11|].
  assert (X : forall ord ord' sci step cwd h0 doc h' m', is_order ord -> is_order ord' -> sci_nonneg sci -> heap_ok h0 -> write_xml ord heap11 model11 = Some doc -> read_xml ord' sci step cwd h0 doc = SxDone (h', Some m') -> model_back heap11 model11 h' m').
  { intros ord ord' sci step cwd h0 doc h' m' O O' So K Ew Er. destruct (written_and_read ord ord' sci step cwd heap11 model11 tree11 h0 O O' So represents11 enrolled11 resolved11 writable11 K) as (doc' & h2 & m2 & Ew' & _ & Er' & B & _).
    assert (doc' = doc) as -> by congruence. rewrite Er in Er'. injection Er' as <- <-. exact B. }
  split.
  - exists (T "base"), 0. split; [reflexivity|]. split; [eexists 1, _; repeat split; left; reflexivity|]. intros ord ord' sci step cwd h0 doc h' m' O O' So K Ew Er. pose proof (X _ _ _ _ _ _ _ _ _ O O' So K Ew Er) as B.
    destruct (mb_features _ _ _ _ B (T "base") 0 _ eq_refl eq_refl) as (p' & _ & G & _). exists p'. split; [exact G|]. exact (proj1 (proj2 (mb_groups _ _ _ _ B (T "base") 0 p' eq_refl G))).
  - exists (T "n"), 4, n11. split; [reflexivity|]. split; [reflexivity|]. intros ord ord' sci step cwd h0 doc h' m' O O' So K Ew Er. pose proof (X _ _ _ _ _ _ _ _ _ O O' So K Ew Er) as B.
    destruct (mb_features _ _ _ _ B (T "n") 4 n11 eq_refl eq_refl) as (i' & g & G & F & (_ & _ & (ws & Ek & (a & b & v & Ea & Eb & Fa)) & _)). exists i', g. split; [exact G|]. split; [exact F|]. rewrite Ek. intros E. injection E as E.
    assert (a = [1; 4294967301]%Z) as -> by (change [1; 4294967301; 4294967302]%Z with ([1; 4294967301]%Z ++ [4294967302%Z]) in Ea; apply app_inj_tail in Ea; symmetry; apply Ea).
    inversion Fa as [|? w1 ? ? _ Fa1]; subst. inversion Fa1 as [|? w2 ? ? (Rg & _) Fa2]; subst. inversion Fa2; subst. cbn in E. injection E as _ E _. lia.
Qed.
