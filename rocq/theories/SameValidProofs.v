(** Models that look the same have the same valid configurations. *)
From Coq Require Import List ZArith Arith Bool Ascii String Permutation Lia.
From Verif Require Import Text TextProofs ConstraintModel ConstraintSpec FeatureTreeModel FeatureTreeSpec FeatureTreeProofs FeatureTransactionModel FeatureTransactionSpec FeatureEditSpec FeatureEditProofs
  FeatureHistoryProofs FeatureBuildSpec FeatureCloneSpec FeatureCloneProofs SxfmModel XmlModel XmlSpec XmlTripSpec XmlCycleSpec ConfigurationModel SolverModel SolverSpec SolverProofs SolverLoadProofs
  SolverEncodingProofs ValidSpec ValidProofs ValidCloneProofs ValidTripProofs.
Import ListNotations.

Lemma alike_refl k : alike k k.
Proof. destruct k; cbn; auto. intros n. reflexivity. Qed.

(** Two expressions spelled alike. *)
Lemma meet_spelled h m t h' m' t' e e' x : represents h m t -> represents h' m' t' ->
  (forall r, In r (leaves e) -> exists s i, r = Ref i /\ get_feature m s = Some i) -> (forall r, In r (leaves e') -> exists s i, r = Ref i /\ get_feature m' s = Some i) ->
  spelled h e x -> spelled h' e' x -> crel (corresponds m m') e e'.
Proof.
  intros R R' L L' S1 S2.
  assert (C : crel (fun r r' => exists s, called_in h r s /\ called_in h' r' s) e e').
  { eapply (crel_compose (called_in h) (fun s r => called_in h' r s)); [|apply spelled_crel; exact S1|apply crel_sym, spelled_crel; exact S2]. intros r s r' A B. exists s. auto. }
  apply (crel_refine _ _ _ _ C). intros r r' I I' (s & E & E').
  destruct (L r I) as (u & i & -> & G). destruct (L' r' I') as (u' & i' & -> & G'). exists u, i, i'. split; [reflexivity|]. split; [reflexivity|]. split; [exact G|].
  destruct E as (f & F & N). destruct E' as (f' & F' & N'). rewrite (get_name h m t R u i f G F) in N. rewrite (get_name h' m' t' R' u' i' f' G' F') in N'. congruence.
Qed.

Section Same.
Variables (h : heap) (m : fmodel) (t : tree) (h' : heap) (m' : fmodel) (t' : tree).
Hypothesis R : represents h m t.
Hypothesis R' : represents h' m' t'.
Hypothesis Re : all_resolved m.
Hypothesis Re' : all_resolved m'.
Hypothesis Sm : same_model h m h' m'.

Lemma same_names_back s : get_feature m' s = None -> get_feature m s = None.
Proof. apply names_none. apply Permutation_sym. exact (sm_names _ _ _ _ Sm). Qed.
Lemma same_names_forth s : get_feature m s = None -> get_feature m' s = None.
Proof. apply names_none. exact (sm_names _ _ _ _ Sm). Qed.
Lemma there s i : get_feature m s = Some i -> exists i', get_feature m' s = Some i'.
Proof. intros G. destruct (get_feature m' s) as [i'|] eqn:E; [eauto|]. apply same_names_back in E. congruence. Qed.
Lemma same_frame : frame h m h' m'.
Proof.
  constructor.
  - exact same_names_back.
  - intros s i f G F. destruct (there s i G) as (i' & G'). destruct (get_stored h' m' t' R' s i' G') as (f' & (_ & F') & _). exists i', f'. split; [exact G'|]. split; [exact F'|].
    destruct (sm_features _ _ _ _ Sm s i i' f f' G G' F F') as (_ & K & O & _). rewrite K. split; [apply alike_refl|]. intros _. exact O.
  - intros s i u p r G Gp H. destruct (there s i G) as (i' & G'). destruct (there u p Gp) as (p' & Gp'). exists i', p'. split; [exact G'|]. split; [exact Gp'|].
    exact (proj1 (sm_hangs _ _ _ _ Sm s u i i' p p' r G G' Gp Gp') H).
  - intros u p k G H. destruct (there u p G) as (p' & G'). exists p'. split; [exact G'|]. exact (proj1 (sm_groups _ _ _ _ Sm u p p' k G G') H).
Qed.
Lemma same_meet c c' e : In c (all_constraints m) -> In c' (all_constraints m') -> spelled h (c_expr c) e -> spelled h' (c_expr c') e -> crel (corresponds m m') (c_expr c) (c_expr c').
Proof. intros I I' S1 S2. apply (meet_spelled h m t h' m' t' _ _ e R R'); try assumption; intros r Ir; [exact (Re c r I Ir)|exact (Re' c' r I' Ir)]. Qed.
End Same.

(** Every constraint of the second model is matched in the first. *)
Section Matched.
Variables (h : heap) (m : fmodel) (t : tree) (h' : heap) (m' : fmodel) (t' : tree).
Hypothesis R : represents h m t.
Hypothesis R' : represents h' m' t'.
Hypothesis Re : all_resolved m.
Hypothesis Re' : all_resolved m'.
Hypothesis Sm : same_model h m h' m'.

Lemma plain_from c' : In c' (m_boolean m' ++ m_nonboolean m') -> exists c, In c (m_boolean m ++ m_nonboolean m) /\ crel (corresponds m m') (c_expr c) (c_expr c').
Proof.
  intros I. assert (A' : In c' (all_constraints m')) by (unfold all_constraints; rewrite app_assoc; apply in_or_app; auto). apply in_app_or in I. destruct I as [I|I].
  - destruct (spelled_exists h' m' t' (c_expr c') R' (fun r Ir => Re' c' r A' Ir)) as (e & E). destruct (proj2 (sm_boolean _ _ _ _ Sm e)) as (c & Ic & Ec); [exists c'; auto|].
    exists c. split; [apply in_or_app; auto|]. apply (same_meet h m t h' m' t' R R' Re Re' c c' e); [unfold all_constraints; apply in_or_app; auto|exact A'|exact Ec|exact E].
  - destruct (Forall2_right _ _ _ _ (sm_nonboolean _ _ _ _ Sm) I) as (c & Ic & e & Ec & E). exists c. split; [apply in_or_app; auto|].
    apply (same_meet h m t h' m' t' R R' Re Re' c c' e); [apply in_nonboolean; exact Ic|exact A'|exact Ec|exact E].
Qed.
Lemma mixed_from x' : In x' (m_mixed m') -> exists x, In x (m_mixed m) /\ crel (corresponds m m') (c_expr (x_con x)) (c_expr (x_con x')) /\ x_req x' = x_req x /\ x_kind x' = x_kind x.
Proof.
  intros I. destruct (Forall2_right _ _ _ _ (sm_mixed _ _ _ _ Sm) I) as (x & Ix & (e & Ec & E) & Q & K). exists x. split; [exact Ix|]. split; [|auto].
  apply (same_meet h m t h' m' t' R R' Re Re' _ _ e); [apply in_mixed; exact Ix|apply in_mixed; exact I|exact Ec|exact E].
Qed.
End Matched.

(** ** Looking the same is symmetric *)
Lemma same_text_sym h h' c c' : same_text h h' c c' -> same_text h' h c' c.
Proof. intros (e & A & B). exists e. auto. Qed.
Lemma forall2_flip {A B} (P : A -> B -> Prop) (Q : B -> A -> Prop) l l' : (forall a b, P a b -> Q b a) -> Forall2 P l l' -> Forall2 Q l' l.
Proof. intros H F. induction F; constructor; auto. Qed.
Lemma same_model_sym h m h' m' : same_model h m h' m' -> same_model h' m' h m.
Proof.
  intros S1. constructor.
  - symmetry. apply (sm_name _ _ _ _ S1).
  - symmetry. apply (sm_path _ _ _ _ S1).
  - symmetry. apply (sm_commit _ _ _ _ S1).
  - apply Permutation_sym. apply (sm_names _ _ _ _ S1).
  - destruct (sm_root _ _ _ _ S1) as (s & A & B & C & D). exists s. auto.
  - intros s i i' f g G G' F F'. destruct (sm_features _ _ _ _ S1 s i' i g f G' G F' F) as (A & B & C & D & E). unfold same_data. rewrite A, B, C, D, E. auto.
  - intros s u i i' p p' g G G' Gp Gp'. symmetry. exact (sm_hangs _ _ _ _ S1 s u i' i p' p g G' G Gp' Gp).
  - intros u p p' k G G'. symmetry. exact (sm_groups _ _ _ _ S1 u p' p k G' G).
  - intros e. symmetry. apply (sm_boolean _ _ _ _ S1).
  - eapply forall2_flip; [|exact (sm_nonboolean _ _ _ _ S1)]. intros a b. apply same_text_sym.
  - eapply forall2_flip; [|exact (sm_mixed _ _ _ _ S1)]. intros a b (A & B & C). split; [apply same_text_sym; exact A|auto].
Qed.

(** ** Valid configurations *)
Lemma same_valid_one h m t h' m' t' a : represents h m t -> represents h' m' t' -> all_resolved m -> all_resolved m' -> same_model h m h' m' ->
  SolverSpec.valid h m a -> SolverSpec.valid h' m' a.
Proof.
  intros R R' Re Re' Sm. pose proof (same_frame h m h' m' t' R' Sm) as Fr. pose proof (same_frame h' m' h m t R (same_model_sym _ _ _ _ Sm)) as Fr'.
  apply (valid_transfer h m t h' m' t' R R' Fr Fr').
  - intros V c' I. destruct (plain_from h m t h' m' t' R R' Re Re' Sm c' I) as (c & Ic & C). rewrite <- (same_value h m t h' m' t' R R' Fr false a _ _ C). exact (v_constraints _ _ _ V c Ic).
  - intros V x' I. destruct (mixed_from h m t h' m' t' R R' Re Re' Sm x' I) as (x & Ix & C & -> & ->).
    eapply (same_mixed h m t h' m' t' R R' Fr); [apply crel_leaves; exact C|exact (same_value h m t h' m' t' R R' Fr true a _ _ C)|exact (v_mixed _ _ _ V x Ix)].
Qed.
Lemma same_supported h m t h' m' t' : represents h m t -> represents h' m' t' -> all_resolved m -> all_resolved m' -> same_model h m h' m' -> supported h m -> supported h' m'.
Proof.
  intros R R' Re Re' Sm V. pose proof (same_frame h m h' m' t' R' Sm) as Fr. pose proof (same_frame h' m' h m t R (same_model_sym _ _ _ _ Sm)) as Fr'.
  apply (supported_transfer h m t h' m' t' R R' Fr Fr'); [| | |exact V].
  - intros i' f' v g Sf K. pose proof (stored_get h' m' t' R' i' f' Sf) as G'. destruct (there h' m' h m (same_model_sym _ _ _ _ Sm) _ _ G') as (i & G). destruct (get_stored h m t R _ i G) as (f & S0 & _).
    destruct (sm_features _ _ _ _ Sm _ i i' f f' G G' (proj2 S0) (proj2 Sf)) as (_ & Kf & _). apply (su_ranges _ _ V i f v g S0). congruence.
  - intros c' I a. destruct (plain_from h m t h' m' t' R R' Re Re' Sm c' I) as (c & Ic & C). rewrite <- (same_value h m t h' m' t' R R' Fr false a _ _ C). exact (su_constraints _ _ V c Ic a).
  - intros x' I a. destruct (mixed_from h m t h' m' t' R R' Re Re' Sm x' I) as (x & Ix & C & _). rewrite <- (same_value h m t h' m' t' R R' Fr true a _ _ C). exact (su_mixed _ _ V x Ix a).
Qed.
Lemma same_no_xor h m t h' m' t' : represents h m t -> represents h' m' t' -> all_resolved m -> all_resolved m' -> same_model h m h' m' -> no_xor m -> no_xor m'.
Proof.
  intros R R' Re Re' Sm X e I. rewrite app_assoc, map_app in I. apply in_app_or in I. destruct I as [I|I]; apply in_map_iff in I; destruct I as (c' & <- & I).
  - destruct (plain_from h m t h' m' t' R R' Re Re' Sm c' I) as (c & Ic & C). eapply crel_xor_free; [exact C|]. apply X. rewrite app_assoc, map_app. apply in_or_app. left. apply in_map. exact Ic.
  - apply in_map_iff in I. destruct I as (x' & <- & I). destruct (mixed_from h m t h' m' t' R R' Re Re' Sm x' I) as (x & Ix & C & _). eapply crel_xor_free; [exact C|]. apply X.
    rewrite app_assoc, map_app. apply in_or_app. right. apply in_map, in_map. exact Ix.
Qed.
