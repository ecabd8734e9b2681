(** Saved documents do not depend on memory and do not change any more. *)
From Coq Require Import List ZArith Arith Bool Ascii String Permutation Lia.
From Verif Require Import Text TextProofs ConstraintModel ConstraintParserModel ConstraintSpec ConstraintRoundTrip FeatureTreeModel FeatureTreeSpec FeatureTransactionModel
  FeatureEditSpec FeatureBuildSpec SxfmModel XmlModel XmlWriterModel XmlSpec XmlTripSpec XmlTripDoc XmlTripFinal RegisterSpec RegisterFinal ValidTripProofs XmlCycleSpec XmlCycleProofs XmlCycleFinal XmlCountSpec XmlCountProofs XmlCountFinal XmlSameSpec XmlSameProofs.
Import ListNotations.
Local Open Scope nat_scope.

Lemma unpaired_unique l k k' : unpaired l k -> unpaired l k' -> k = k'.
Proof. intros A B. rewrite (unpaired_filter l k A), (unpaired_filter l k' B). reflexivity. Qed.
Lemma unpaired_in l k c : unpaired l k -> In c k -> In c l.
Proof. intros A I. rewrite (unpaired_filter l k A) in I. apply filter_In in I. apply I. Qed.
Lemma forall2_same {A} (P : A -> A -> Prop) l : (forall x, In x l -> P x x) -> Forall2 P l l.
Proof. induction l as [|a l IH]; intros H; constructor; [apply H; left; reflexivity|apply IH; intros x I; apply H; right; exact I]. Qed.
Lemma resolved_spelled h m t c : represents h m t -> all_resolved m -> In c (all_constraints m) -> exists e, spelled h (c_expr c) e.
Proof. intros R Rs I. exact (spelled_exists h m t (c_expr c) R (fun r => Rs c r I)). Qed.
Lemma excludes_boolean h m a b : excludes_named h m a b <-> boolean_back h m (excluding_text a b).
Proof.
  split.
  - intros [X|(i & j & Gi & Gj & N & X)]; [left; split; [eexists _, _, _; split; [right|]; reflexivity|exact X]|right; left; exists a, b, i, j; auto 6].
  - intros [(_ & X)|[(a' & b' & i & j & E & Gi & Gj & N & X)|(c & E & _)]]; [left; exact X|injection E as <- <-; right; exists i, j; auto|destruct c as [[] l r| | |]; discriminate E].
Qed.

(** ** One model, two iteration orders *)
Lemma looks_same_refl h m t : represents h m t -> all_resolved m -> looks_same h m h m.
Proof.
  intros R Rs. assert (Sp := fun c => resolved_spelled h m t c R Rs). assert (Sm : forall c, In c (all_constraints m) -> same_print h h c c) by (intros c I; destruct (Sp c I) as (e & E); left; exists e; auto).
  constructor; try reflexivity.
  - intros s i i' f g G G' F F'. assert (g = f) as -> by congruence. left. repeat split.
  - auto.
  - intros l l' U1 U2. rewrite <- (unpaired_unique _ _ _ U1 U2). apply forall2_same. intros c I. apply Sm. unfold all_constraints. apply in_or_app. left. exact (unpaired_in _ _ c U1 I).
  - apply forall2_same. intros c I. apply Sm. unfold all_constraints. apply in_or_app. right. apply in_or_app. auto.
  - apply forall2_same. intros x I. split; [|auto]. apply Sm. unfold all_constraints. apply in_or_app. right. apply in_or_app. right. apply in_map. exact I.
Qed.
Theorem saved_alike ord ord' h m t h' m' t' : is_order ord -> is_order ord' -> represents h m t -> registered h m -> all_resolved m -> writable h m -> siblings_differ h m ->
  represents h' m' t' -> registered h' m' -> all_resolved m' -> writable h' m' -> looks_same h m h' m' -> write_xml ord h m = write_xml ord' h' m'.
Proof.
  intros Oo Oo' R Rg Rs W D R' Rg' Rs' W' L. exact (documents_same ord ord' Oo Oo' h m t h' m' t' R Rg (registered_enrolled _ _ Rg) Rs W R' Rg' (registered_enrolled _ _ Rg') Rs' W' D L).
Qed.
Theorem saved_once ord ord' h m t : is_order ord -> is_order ord' -> represents h m t -> registered h m -> all_resolved m -> writable h m -> siblings_differ h m -> write_xml ord h m = write_xml ord' h m.
Proof. intros Oo Oo' R Rg Rs W D. exact (saved_alike ord ord' h m t h m t Oo Oo' R Rg Rs W D R Rg Rs W (looks_same_refl h m t R Rs)). Qed.

(** ** Loaded models *)
Section Loaded.
Variables (h : heap) (m : fmodel) (t : tree).
Hypothesis R : represents h m t.
Hypothesis Rg : registered h m.
Hypothesis Rs : all_resolved m.
Hypothesis W : writable h m.
Hypothesis Si : settled_implications h m.

Lemma none_stated l e : (forall c, In c l -> In c (all_constraints m)) -> ~ stated h l e -> times h l e 0.
Proof.
  intros I N. destruct (times_exists h l (fun c J => resolved_spelled h m t c R Rs (I c J)) e) as (n & X). destruct n as [|n]; [exact X|]. destruct N. apply (times_stated _ _ _ _ X). discriminate.
Qed.
Lemma in_boolean c : In c (m_boolean m) -> In c (all_constraints m).
Proof. intros I. unfold all_constraints. apply in_or_app. auto. Qed.
Lemma in_not_boolean c : In c (not_boolean m) -> In c (all_constraints m).
Proof. intros I. rewrite all_split. apply in_or_app. auto. Qed.
Lemma loaded_implies n h1 m1 a b k : cycles n h m h1 m1 -> times h (all_constraints m) (implying a b) k <-> times h1 (all_constraints m1) (implying a b) k.
Proof.
  intros C. pose proof (cycles_counts n h m t h1 m1 R Rg Rs W C) as K.
  assert (X : exists p, times h (all_constraints m) (implying a b) p /\ times h1 (all_constraints m1) (implying a b) p).
  { pose proof (none_stated (not_boolean m) (implying a b) in_not_boolean (si_stored _ _ Si a b)) as Z. destruct (times_exists h (m_boolean m) (fun c J => resolved_spelled h m t c R Rs (in_boolean c J)) (implying a b)) as (p & P). exists p.
    rewrite !all_split. pose proof (ca_not_boolean _ _ _ _ _ K a b 0 Z) as Z1. split; [rewrite <- (Nat.add_0_r p); exact (times_app _ _ _ _ _ _ P Z)|]. rewrite <- (Nat.add_0_r p). apply times_app; [|exact Z1].
    destruct (string_dec a b) as [<-|N].
    - destruct (ca_self _ _ _ _ _ K a p 0 P Z) as (x & X & E). assert (p = 0) as ->.
      { destruct p as [|p]; [reflexivity|]. destruct (si_self _ _ Si a). destruct (proj2 (times_stated _ _ _ _ P)) as (c & I & Sp); [discriminate|]. exists c. split; [exact (in_boolean c I)|exact Sp]. }
      rewrite Nat.mul_0_r in E. assert (x = 0) as -> by lia. exact X.
    - pose proof (ca_implies _ _ _ _ _ K a b p 0 N P Z) as X. rewrite Nat.mul_0_r, Nat.add_0_r in X. exact X. }
  destruct X as (p & X1 & X2). split; intros Y; [rewrite (times_unique _ _ _ _ Y _ X1); exact X2|rewrite (times_unique _ _ _ _ Y _ X2); exact X1].
Qed.
Lemma loaded_excludes n h1 m1 a b : cycles (S n) h m h1 m1 -> excludes_named h m a b <-> excludes_named h1 m1 a b.
Proof.
  intros C. pose proof (cycles_back h m t n h1 m1 R (registered_enrolled _ _ Rg) Rs W C) as B. destruct (mb_represented _ _ _ _ B) as (t1 & R1). rewrite !excludes_boolean. symmetry. exact (boolean_again h m t h1 m1 t1 R B R1 (excluding_text a b) Rs).
Qed.
Lemma back_empty h1 m1 h2 m2 t1 : represents h1 m1 t1 -> all_resolved m1 -> model_back h m h1 m1 -> model_back h m h2 m2 -> m_boolean m2 = [] -> m_boolean m1 = [].
Proof.
  intros R1 Rs1 B1 B2 E. destruct (m_boolean m1) as [|c l] eqn:E1; [reflexivity|]. exfalso. destruct (resolved_spelled h1 m1 t1 c R1 Rs1) as (e & Sp); [unfold all_constraints; rewrite E1; left; reflexivity|].
  assert (S1 : stated h1 (m_boolean m1) e) by (exists c; rewrite E1; split; [left; reflexivity|exact Sp]). apply (mb_boolean _ _ _ _ B1), (mb_boolean _ _ _ _ B2) in S1. rewrite E in S1. destruct S1 as (d & [] & _).
Qed.
Theorem loaded_alike n k h1 m1 h2 m2 : cycles (S n) h m h1 m1 -> cycles (S k) h m h2 m2 -> looks_same h1 m1 h2 m2.
Proof.
  intros C1 C2. pose proof (registered_enrolled _ _ Rg) as En. pose proof (cycles_back h m t n h1 m1 R En Rs W C1) as B1. pose proof (cycles_back h m t k h2 m2 R En Rs W C2) as B2.
  destruct (cycle_states (S n) h m t h1 m1 R En Rs W C1) as ((t1 & R1) & _ & Rs1 & _). destruct (cycle_states (S k) h m t h2 m2 R En Rs W C2) as ((t2 & R2) & _ & Rs2 & _).
  pose proof (cycles_same h m t n k h1 m1 h2 m2 R En Rs W C1 C2) as Sm.
  constructor.
  - apply Sm.
  - apply Sm.
  - apply Sm.
  - intros s. rewrite <- (back_names _ _ _ _ B1 s). apply (back_names _ _ _ _ B2 s).
  - intros s i i' f g G G' F F'. left. exact (sm_features _ _ _ _ Sm s i i' f g G G' F F').
  - intros s p. rewrite (mb_parents _ _ _ _ B1 s p). apply B2.
  - intros a b c X. apply (loaded_implies (S k) h2 m2 a b c C2), (loaded_implies (S n) h1 m1 a b c C1). exact X.
  - intros a b. rewrite <- (loaded_excludes n h1 m1 a b C1). exact (loaded_excludes k h2 m2 a b C2).
  - split; [exact (back_empty h2 m2 h1 m1 t2 R2 Rs2 B2 B1)|exact (back_empty h1 m1 h2 m2 t1 R1 Rs1 B1 B2)].
  - intros l l' U1 U2. destruct (unpaired_exists (m_boolean m)) as (l0 & U0).
    pose proof (ca_others _ _ _ _ _ (cycles_counts (S n) h m t h1 m1 R Rg Rs W C1) l0 l (Nat.neq_succ_0 n) U0 U1) as F1. pose proof (ca_others _ _ _ _ _ (cycles_counts (S k) h m t h2 m2 R Rg Rs W C2) l0 l' (Nat.neq_succ_0 k) U0 U2) as F2.
    clear - F1 F2. revert l' F2. induction F1 as [|x y l0 l (e & A & B) F1 IH]; intros l' F2; inversion F2 as [|? z ? l2 (e' & A' & B') F2']; subst; constructor; [|exact (IH l2 F2')].
    left. exists (excludes_as_implies e). split; [exact B|]. rewrite (spelled_unique _ _ _ _ A A'). exact B'.
  - pose proof (sm_nonboolean _ _ _ _ Sm) as F. clear - F. induction F as [|x y l l' X F IH]; constructor; [left; exact X|exact IH].
  - pose proof (sm_mixed _ _ _ _ Sm) as F. clear - F. induction F as [|x y l l' (X & Y) F IH]; constructor; [split; [left; exact X|exact Y]|exact IH].
Qed.
Theorem first_alike n h1 m1 : plain_root h m -> cycles (S n) h m h1 m1 -> looks_same h m h1 m1.
Proof.
  intros Pr C. pose proof (registered_enrolled _ _ Rg) as En. pose proof (cycles_back h m t n h1 m1 R En Rs W C) as B. destruct (cycle_states (S n) h m t h1 m1 R En Rs W C) as ((t1 & R1) & _ & Rs1 & _).
  constructor.
  - apply B.
  - apply B.
  - apply B.
  - exact (back_names _ _ _ _ B).
  - intros s i i' f g G G' F F'. destruct (mb_features _ _ _ _ B s i f G F) as (i2 & g2 & G2 & F2 & Bk). assert (i2 = i') as -> by congruence. assert (g2 = g) as -> by congruence. right. left. split; [exact Bk|]. exact (pr_root _ _ Pr s i f G F).
  - apply B.
  - intros a b k X. apply (loaded_implies (S n) h1 m1 a b k C). exact X.
  - intros a b. exact (loaded_excludes n h1 m1 a b C).
  - split; intros E.
    + destruct (m_boolean m1) as [|c l] eqn:E1; [reflexivity|]. exfalso. destruct (resolved_spelled h1 m1 t1 c R1 Rs1) as (e & Sp); [unfold all_constraints; rewrite E1; left; reflexivity|].
      assert (S1 : stated h1 (m_boolean m1) e) by (exists c; rewrite E1; split; [left; reflexivity|exact Sp]). apply (mb_boolean _ _ _ _ B) in S1. destruct S1 as [((o & x & y & [Eo | Eo] & Ee) & X)|[(x & y & i & j & -> & Gi & Gj & N & X)|(e0 & _ & _ & X)]]. all: try subst o; try subst e.
      * rewrite all_split, E in X. exact (si_stored _ _ Si x y X).
      * exact (pr_empty _ _ Pr E x y (or_introl X)).
      * apply (pr_empty _ _ Pr E x y). right. exists i, j. auto.
      * rewrite E in X. destruct X as (d & [] & _).
    + destruct (m_boolean m) as [|c l] eqn:E0; [reflexivity|]. exfalso. destruct (resolved_spelled h m t c R Rs) as (e & Sp); [unfold all_constraints; rewrite E0; left; reflexivity|].
      assert (S1 : exists e', stated h1 (m_boolean m1) e').
      { destruct (pair_dec e) as [P|Np]; [exists e; apply (mb_boolean _ _ _ _ B); left; split; [exact P|]; exists c; split; [unfold all_constraints; rewrite E0; left; reflexivity|exact Sp]|].
        exists (excludes_as_implies e). apply (mb_boolean _ _ _ _ B). right. right. exists e. split; [reflexivity|]. split; [exact Np|]. exists c. rewrite E0. split; [left; reflexivity|exact Sp]. }
      destruct S1 as (e' & d & I & _). rewrite E in I. destruct I.
  - intros l l' U1 U2. pose proof (ca_others _ _ _ _ _ (cycles_counts (S n) h m t h1 m1 R Rg Rs W C) l l' (Nat.neq_succ_0 n) U1 U2) as F. clear - F. induction F as [|x y l l' X F IH]; constructor; [right; exact X|exact IH].
  - pose proof (mb_nonboolean _ _ _ _ B) as F. clear - F. induction F as [|x y l l' X F IH]; constructor; [right; exact X|exact IH].
  - pose proof (mb_mixed _ _ _ _ B) as F. clear - F. induction F as [|x y l l' (X & Y) F IH]; constructor; [split; [right; exact X|exact Y]|exact IH].
Qed.
Hypothesis D : siblings_differ h m.
Lemma loaded_differ n h1 m1 : cycles n h m h1 m1 -> siblings_differ h1 m1.
Proof.
  intros C. destruct n as [|n]; [inversion C; subst; exact D|]. pose proof (cycles_back h m t n h1 m1 R (registered_enrolled _ _ Rg) Rs W C) as B. intros s u p X Y. apply D with (p := p); apply (mb_parents _ _ _ _ B); assumption.
Qed.
Theorem loaded_saved n k h1 m1 h2 m2 ord ord' : is_order ord -> is_order ord' -> cycles (S n) h m h1 m1 -> cycles (S k) h m h2 m2 -> write_xml ord h1 m1 = write_xml ord' h2 m2.
Proof.
  intros Oo Oo' C1 C2. pose proof (registered_enrolled _ _ Rg) as En.
  destruct (cycle_states (S n) h m t h1 m1 R En Rs W C1) as ((t1 & R1) & _ & Rs1 & W1 & _). destruct (cycle_states (S k) h m t h2 m2 R En Rs W C2) as ((t2 & R2) & _ & Rs2 & W2 & _).
  exact (saved_alike ord ord' h1 m1 t1 h2 m2 t2 Oo Oo' R1 (cycles_registered _ _ _ _ _ Rg C1) Rs1 W1 (loaded_differ _ _ _ C1) R2 (cycles_registered _ _ _ _ _ Rg C2) Rs2 W2 (loaded_alike n k h1 m1 h2 m2 C1 C2)).
Qed.
Theorem first_saved n h1 m1 ord ord' : is_order ord -> is_order ord' -> plain_root h m -> cycles n h m h1 m1 -> write_xml ord h m = write_xml ord' h1 m1.
Proof.
  intros Oo Oo' Pr C. destruct n as [|n]; [inversion C; subst; exact (saved_once ord ord' _ _ t Oo Oo' R Rg Rs W D)|]. pose proof (registered_enrolled _ _ Rg) as En.
  destruct (cycle_states (S n) h m t h1 m1 R En Rs W C) as ((t1 & R1) & _ & Rs1 & W1 & _).
  exact (saved_alike ord ord' h m t h1 m1 t1 Oo Oo' R Rg Rs W D R1 (cycles_registered _ _ _ _ _ Rg C) Rs1 W1 (first_alike n h1 m1 Pr C)).
Qed.
End Loaded.
