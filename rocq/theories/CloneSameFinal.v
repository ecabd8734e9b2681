(** Clones, clones of clones and their documents. *)
From Coq Require Import List ZArith Arith Bool Ascii String Permutation.
From Verif Require Import Text ConstraintModel ConstraintSpec FeatureTreeModel FeatureTreeSpec FeatureTransactionModel FeatureTransactionSpec FeatureEditSpec FeatureBuildSpec FeatureCloneSpec FeatureCloneProofs SxfmModel XmlModel XmlWriterModel XmlSpec
  XmlTripSpec XmlTripFinal RegisterSpec XmlCycleSpec XmlCountSpec XmlSameSpec XmlSameFinal ConfigurationModel SolverModel SolverSpec ValidFinal SameValidFinal SafeSpec SafeProofs SafeFinal CloneSameSpec CloneSameProofs.
Import ListNotations.

Section Final.
Variables (ord : list nid -> list nid) (map_order : list (text * nid) -> list (text * nid)).
Hypothesis ord_ok : is_order ord.
Hypothesis map_ok : forall l, Permutation (map_order l) l.

Lemma clone_made h m : sound h m -> root_name_free m -> exists h' m', clone_model ord map_order h m = Some (h', m') /\ cloned h m h' m' /\ sound h' m'.
Proof.
  intros S Rf. pose proof S as ((t & R) & G & A). destruct (model_cloned ord ord_ok map_order map_ok h m t R (resolved_connected h m t R A) Rf) as (h' & m' & E & Cl & _).
  exists h', m'. split; [exact E|]. split; [exact Cl|]. exact (clone_sound ord map_order h m h' m' ord_ok map_ok S Rf E).
Qed.
Theorem clones_same h m : sound h m -> root_name_free m -> exists h' m', clone_model ord map_order h m = Some (h', m') /\ (same_model h m h' m' <-> plain h m).
Proof.
  intros S Rf. destruct (clone_made h m S Rf) as (h' & m' & E & Cl & ((t' & R') & _)). destruct S as ((t & R) & _ & A). exists h', m'. split; [exact E|]. split; [exact (same_plain h m t h' m' t' R R' Cl)|exact (plain_same h m t h' m' t' R R' Cl A)].
Qed.
Theorem plain_clones_valid h m : sound h m -> root_name_free m -> plain h m -> exists h' m', clone_model ord map_order h m = Some (h', m') /\ forall a, SolverSpec.valid h' m' a <-> SolverSpec.valid h m a.
Proof.
  intros S Rf P. destruct (clone_made h m S Rf) as (h' & m' & E & Cl & ((t' & R') & _ & A')). destruct S as ((t & R) & _ & A). exists h', m'. split; [exact E|]. intros a.
  apply (same_models_valid h m t h' m' t' a R R' A A'). exact (plain_same h m t h' m' t' R R' Cl A P).
Qed.
Theorem clones_of_clones ord2 map_order2 h m : is_order ord2 -> (forall l, Permutation (map_order2 l) l) -> sound h m -> root_name_free m ->
  exists h1 m1 h2 m2, clone_model ord map_order h m = Some (h1, m1) /\ clone_model ord2 map_order2 h1 m1 = Some (h2, m2) /\ same_model h1 m1 h2 m2.
Proof.
  intros O2 M2 S Rf. destruct (clone_made h m S Rf) as (h1 & m1 & E & Cl & S1). exists h1, m1. pose proof S1 as ((t1 & R1) & _ & A1). destruct S as ((t & R) & _ & A).
  assert (Rf1 : root_name_free m1).
  { intros i' G'. destruct (proj2 (clone_there h m h1 m1 Cl _) (ex_intro _ i' G')) as (i & G). apply (clone_root h m t h1 m1 t1 R R1 Cl _ i i' G G'). exact (Rf i G). }
  destruct (model_cloned ord2 O2 map_order2 M2 h1 m1 t1 R1 (resolved_connected h1 m1 t1 R1 A1) Rf1) as (h2 & m2 & E2 & Cl2 & _). exists h2, m2. split; [exact E|]. split; [exact E2|].
  destruct (cl_represented _ _ _ _ Cl2) as (t2 & R2). apply (plain_same h1 m1 t1 h2 m2 t2 R1 R2 Cl2 A1). exact (clone_plain h m t h1 m1 t1 R R1 Cl).
Qed.
Lemma writable_root_free h m : writable h m -> root_name_free m.
Proof. intros W i G. apply (wr_root _ _ W _ i G). left. reflexivity. Qed.
Theorem clones_saved ord1 ord2 h m : is_order ord1 -> is_order ord2 -> sound h m -> writable h m -> siblings_differ h m -> bare_root h m -> all_grouped h m ->
  exists h' m' doc, clone_model ord map_order h m = Some (h', m') /\ write_xml ord1 h m = Some doc /\ write_xml ord2 h' m' = Some doc.
Proof.
  intros O1 O2 S W D Br Ag. pose proof (writable_root_free h m W) as Rf. destruct (clone_made h m S Rf) as (h' & m' & E & Cl & ((t' & R') & G' & A')). destruct (sound_used h m S) as (_ & _ & _ & _ & _ & Sv). destruct (Sv W ord1 O1) as (doc & Ed & _). destruct S as ((t & R) & G & A).
  pose proof (clone_writable h m t h' m' t' R R' Cl A W) as W'.
  pose proof (saved_alike ord1 ord2 h m t h' m' t' O1 O2 R G A W D R' G' A' W' (clone_looks_same h m t h' m' t' R R' Cl A Br Ag W)) as Eq.
  exists h', m', doc. split; [exact E|]. split; [exact Ed|]. rewrite <- Eq. exact Ed.
Qed.
End Final.
