(** Models whose mentions are features of the model can be drawn. *)
From Coq Require Import List ZArith NArith Arith Bool Ascii String Permutation Lia.
From Verif Require Import Text TextProofs ConstraintModel ConstraintSpec SourceRangeModel FeatureTreeModel FeatureTreeSpec FeatureTransactionModel
  FeatureEditSpec FeatureTreeProofs FeatureEditProofs FeatureDataProofs XmlModel XmlSpec GraphvizModel GraphvizSpec GraphvizFinal RegisterSpec RegisterProofs RegisterFinal.
Import ListNotations.
Local Open Scope list_scope.

Lemma spelled_exists h c : (forall r, In r (leaves c) -> exists s, GraphvizSpec.mentioned h r s) -> exists x, spelled_out h c x.
Proof.
  induction c as [o l IHl r IHr|o c IH|n|r]; intros H; cbn [leaves] in H.
  - destruct IHl as (x & X); [intros q I; apply H, in_or_app; left; exact I|]. destruct IHr as (y & Y); [intros q I; apply H, in_or_app; right; exact I|]. eexists. constructor; eassumption.
  - destruct (IH H) as (x & X). eexists. constructor. exact X.
  - eexists. constructor.
  - destruct (H r (or_introl eq_refl)) as (s & X). eexists. constructor. exact X.
Qed.
Lemma owned_iff m id e : owned_by m id e <-> exists c, In c (all_constraints m) /\ c_id c = id /\ c_expr c = e.
Proof.
  unfold owned_by, all_constraints. split.
  - intros (c & A & B & I). exists c. split; [|auto]. rewrite !in_app_iff, in_map_iff. destruct I as [I|[I|(x & I & <-)]]; eauto.
  - intros (c & I & A & B). exists c. split; [exact A|]. split; [exact B|]. rewrite !in_app_iff, in_map_iff in I. destruct I as [I|[I|(x & <- & I)]]; eauto.
Qed.
Theorem registered_drawable h m t : RegisterSpec.registered h m -> represents h m t -> all_resolved m -> registered_ok h m t.
Proof.
  intros G R A. split.
  - intros u f k Su Du I. pose proof (rep_feature_at h m t u f R Su Du) as Fu.
    assert (get_feature m (f_name f) = Some (rid u)) as Gu by (apply (rep_find R); apply named_subtree; exists u, f; auto).
    destruct k as (id & pos). apply (in_mentions _ _ (rg_informed _ _ G) _ _ _ _ _ Gu Fu) in I. destruct I as (c & Ic & E & _). exists (c_expr c). cbn [fst].
    destruct (spelled_exists h (c_expr c)) as (x & X).
    + intros r Ir. destruct (A c r Ic Ir) as (s & i & -> & Gi). apply (rep_find R) in Gi. apply named_subtree in Gi. destruct Gi as (v & g & Sv & <- & Dv & <-). exists (f_name g), g. split; [exact (rep_feature_at h m t v g R Sv Dv)|reflexivity].
    + exists x. split; [|exact X]. apply owned_iff. exists c. auto.
  - intros id e e' (c & I & E & <-)%owned_iff (c' & I' & E' & <-)%owned_iff. assert (c = c') as ->; [|reflexivity]. pose proof (rg_distinct _ _ G) as D. revert D I I' E E'. generalize (all_constraints m) as l. clear.
    induction l as [|a l IH]; cbn; intros D; inversion_clear D as [|? ? Na Dl]; [contradiction|]. intros [->|I] [->|I'] E E'; auto; exfalso; apply Na, in_map_iff; [exists c'; split; congruence|exists c; split; congruence].
Qed.
Theorem obtained_drawable ord h m t : obtained ord h m -> represents h m t -> all_resolved m -> registered_ok h m t.
Proof. intros O. exact (registered_drawable h m t (obtained_registered ord h m O)). Qed.
Theorem obtained_drawn ord ptr this h m t title : obtained ord h m -> represents h m t -> all_resolved m ->
  exists start items text, write_graph ptr this h m title = Some text /\ graph_head this title (m_name m) start /\ graph_text ptr start items text /\ draws h m t items.
Proof. intros O R A. exact (graphs_draw_the_tree ptr this h m t title R (obtained_drawable ord h m t O R A)). Qed.
