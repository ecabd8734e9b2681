(** How often constraints are stated after models were saved and loaded several times. *)
From Coq Require Import List ZArith Arith Bool Ascii String Permutation Lia.
From Verif Require Import Text TextProofs ConstraintModel ConstraintParserModel ConstraintSpec ConstraintRoundTrip FeatureTreeModel FeatureTreeSpec FeatureTransactionModel
  FeatureEditSpec FeatureBuildSpec SxfmModel XmlModel XmlWriterModel XmlSpec XmlTripSpec XmlTripDoc XmlTripFinal RegisterSpec RegisterFinal XmlCycleSpec XmlCycleProofs XmlCycleFinal XmlCountSpec XmlCountProofs.
Import ListNotations.
Local Open Scope nat_scope.

Lemma registered_enrolled h m : registered h m -> enrolled h m.
Proof. intros [I Ho Ke Na Di Id Re]. constructor; [exact Di|exact Id|exact (in_excludes _ _ I)|exact (in_implies _ _ I)]. Qed.

Theorem saved_counts ord ord' sci step cwd h m t h0 doc h' m' : is_order ord -> is_order ord' -> sci_nonneg sci -> represents h m t -> registered h m -> all_resolved m -> writable h m -> heap_ok h0 ->
  write_xml ord h m = Some doc -> read_xml ord' sci step cwd h0 doc = SxDone (h', Some m') -> counts_back h m h' m'.
Proof.
  intros Oo Oo' So R Rg Rs W K Wr Rd. pose proof (registered_enrolled h m Rg) as En.
  destruct (written_and_read_list ord ord' sci step cwd h m t h0 Oo Oo' So R En Rs W K) as (doc' & h2 & m2 & Wr' & _ & Rd' & _ & _ & _ & ids & ls & ys & zs & Pi & Ni & Ca & E & Fy & Fz).
  assert (doc' = doc) as -> by congruence. rewrite Rd in Rd'. injection Rd' as <- <-.
  exact (counted h m t R En Rs (rg_informed _ _ Rg) ids ls Pi Ni Ca h' m' ys zs E Fy Fz).
Qed.

(** The constraints stored elsewhere. *)
Lemma times_forall2 h h' l l' a b n : Forall2 (constraint_back h h') l l' -> times h l (implying a b) n -> times h' l' (implying a b) n.
Proof.
  intros F. revert n. induction F as [|c c' l l' (e & S1 & S2) F IH]; intros n X; inversion X as [|? ? ? k Sp X'|? ? ? k Sp X']; subst; [constructor| |].
  - apply times_one; [|exact (IH _ X')]. rewrite (spelled_unique h _ _ _ S1 Sp) in S2. exact S2.
  - apply times_other; [|exact (IH _ X')]. intros Sp'. apply Sp. pose proof (spelled_unique h' _ _ _ S2 Sp') as E. assert (P : pair (excludes_as_implies e)) by (rewrite E; eexists BImplies, _, _; split; [left|]; reflexivity).
    rewrite (implies_pair e P) in E. rewrite <- E. exact S1.
Qed.
Lemma back_elsewhere h m h' m' : model_back h m h' m' -> Forall2 (constraint_back h h') (not_boolean m) (not_boolean m').
Proof.
  intros B. apply Forall2_app; [exact (mb_nonboolean _ _ _ _ B)|]. pose proof (mb_mixed _ _ _ _ B) as X. induction X as [|x x' l l' (H & _) X IH]; [constructor|]. constructor; [exact H|exact IH].
Qed.
Lemma all_split m : all_constraints m = m_boolean m ++ not_boolean m.
Proof. reflexivity. Qed.

Lemma cycles_registered n h m h' m' : registered h m -> cycles n h m h' m' -> registered h' m'.
Proof. intros Rg C. destruct C as [h m|n h m h1 m1 ord ord' sci step cwd h0 doc h2 m2 C Oo Oo' So K Wr Rd]; [exact Rg|]. exact (obtained_registered ord' h2 m2 (ob_xml ord' sci step cwd h0 doc h2 m2 K Rd)). Qed.
Lemma unpaired_exists l : exists k, unpaired l k.
Proof.
  induction l as [|c l (k & IH)]; [exists []; constructor|]. destruct (is_pair (c_expr c)) eqn:E; [exists k; apply unpaired_pair; [apply is_pair_iff; exact E|exact IH]|].
  exists (c :: k). apply unpaired_other; [|exact IH]. intros P. apply is_pair_iff in P. congruence.
Qed.

Theorem cycles_counts n : forall h m t h' m', represents h m t -> registered h m -> all_resolved m -> writable h m -> cycles n h m h' m' -> counts_after n h m h' m'.
Proof.
  induction n as [|n IH]; intros h m t h' m' R Rg Rs W C.
  - inversion C; subst. constructor.
    + intros a b p k _ X _. rewrite Nat.mul_0_l, Nat.add_0_r. exact X.
    + intros a p k X _. exists p. split; [exact X|]. cbn. lia.
    + auto.
    + intros a b N. destruct (N eq_refl).
    + intros l l' N. destruct (N eq_refl).
  - pose proof C as C0. inversion C as [|? ? ? h1 m1 ord ord' sci step cwd h0 doc ? ? C1 Ho Ho' Hs H0 Wr Rd]; subst.
    pose proof (IH h m t h1 m1 R Rg Rs W C1) as I1. destruct (cycle_states n h m t h1 m1 R (registered_enrolled _ _ Rg) Rs W C1) as ((t1 & R1) & En1 & Rs1 & W1 & B1). pose proof (cycles_registered n h m h1 m1 Rg C1) as Rg1.
    pose proof (saved_counts ord ord' sci step cwd h1 m1 t1 h0 doc h' m' Ho Ho' Hs R1 Rg1 Rs1 W1 H0 Wr Rd) as Cb.
    destruct (written_and_read ord ord' sci step cwd h1 m1 t1 h0 Ho Ho' Hs R1 En1 Rs1 W1 H0) as (doc' & h2 & m2 & Wr' & _ & Rd' & Mb & _). assert (doc' = doc) as -> by congruence. rewrite Rd in Rd'. injection Rd' as <- <-.
    constructor.
    + intros a b p k N X Y. pose proof (times_app _ _ _ _ _ _ (ca_implies _ _ _ _ _ I1 a b p k N X Y) (ca_not_boolean _ _ _ _ _ I1 a b k Y)) as Z. rewrite <- all_split in Z. pose proof (cb_implies _ _ _ _ Cb a b _ N Z) as Q.
      replace (p + S n * k) with (p + n * k + k) by lia. exact Q.
    + intros a p k X Y. destruct (ca_self _ _ _ _ _ I1 a p k X Y) as (x & Zx & Ex). pose proof (times_app _ _ _ _ _ _ Zx (ca_not_boolean _ _ _ _ _ I1 a a k Y)) as Z. rewrite <- all_split in Z. pose proof (cb_self _ _ _ _ Cb a _ Z) as Q.
      exists (2 * (x + k)). split; [exact Q|]. rewrite Nat.pow_succ_r', <- Nat.mul_assoc, <- Ex. lia.
    + intros a b k Y. exact (times_forall2 h1 h' _ _ a b k (back_elsewhere _ _ _ _ Mb) (ca_not_boolean _ _ _ _ _ I1 a b k Y)).
    + intros a b _ X. exact (cb_excludes _ _ _ _ Cb a b X).
    + intros l l' _ U U'. destruct n as [|n].
      * inversion C1; subst. exact (cb_others _ _ _ _ Cb l l' U U').
      * destruct (unpaired_exists (m_boolean m1)) as (l1 & U1). eapply (forall2_chain (constraint_back h h1) (constraint_back h1 h')); [|exact (ca_others _ _ _ _ _ I1 l l1 (Nat.neq_succ_0 n) U U1)|exact (cb_others _ _ _ _ Cb l1 l' U1 U')].
        intros x y z (e & S0 & S1) (e' & S1' & S2). exists e. split; [exact S0|]. rewrite <- (spelled_unique _ _ _ _ S1 S1'), implies_twice in S2. exact S2.
Qed.
