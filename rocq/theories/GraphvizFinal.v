(** What the DOT text of a feature model draws. *)
From Coq Require Import List ZArith NArith Arith Bool Ascii String Lia Permutation.
From Verif Require Import Text TextProofs ConstraintModel ConstraintSpec ConstraintHeapSpec ConstraintHeapProofs SourceRangeModel.
From Verif Require Import SxfmModel XmlTextSpec XmlTextProofs FeatureTreeModel FeatureTreeSpec FeatureTreeProofs FeatureEditSpec FeatureEditProofs FeatureRemoveProofs FeatureDataProofs.
From Verif Require Import GraphvizModel GraphvizSpec GraphvizProofs.
Import ListNotations.
Local Open Scope string_scope.
Local Open Scope list_scope.

Section Drawing.
Variables (h : heap) (m : fmodel).
Notation drawing := (drawing h m).

Definition below (n : nid) (ts : list tree) : list item := flat_map (fun k => drawing k ++ [IEdge n (rid k) (points (rdata k))]) ts ++ [IRank (map rid ts)].
Lemma drawing_node n d ts : drawing (Node n d ts) = INode n (data_shape d) (label_text h m d) :: match ts with [] => [] | _ => [ICluster n (below n ts)] end.
Proof. reflexivity. Qed.

Lemma nodes_below n ts : flat_map nodes_in (below n ts) = flat_map (fun k => flat_map nodes_in (drawing k)) ts.
Proof.
  unfold below. rewrite flat_map_app. cbn [flat_map nodes_in app]. rewrite app_nil_r.
  induction ts as [|k ts IH]; [reflexivity|]. cbn [flat_map]. rewrite flat_map_app, IH, flat_map_app. cbn [flat_map nodes_in app]. rewrite app_nil_r. reflexivity.
Qed.
Lemma edges_below n ts : flat_map edges_in (below n ts) = flat_map (fun k => flat_map edges_in (drawing k) ++ [(n, rid k, points (rdata k))]) ts.
Proof.
  unfold below. rewrite flat_map_app. cbn [flat_map edges_in app]. rewrite app_nil_r.
  induction ts as [|k ts IH]; [reflexivity|]. cbn [flat_map]. rewrite flat_map_app, IH, flat_map_app. cbn [flat_map edges_in app]. reflexivity.
Qed.
Lemma clusters_below n ts : flat_map clusters_in (below n ts) = flat_map (fun k => flat_map clusters_in (drawing k)) ts.
Proof.
  unfold below. rewrite flat_map_app. cbn [flat_map clusters_in app]. rewrite app_nil_r.
  induction ts as [|k ts IH]; [reflexivity|]. cbn [flat_map]. rewrite flat_map_app, IH, flat_map_app. cbn [flat_map clusters_in app]. rewrite app_nil_r. reflexivity.
Qed.
Lemma drawing_nodes n d ts : flat_map nodes_in (drawing (Node n d ts)) = (n, data_shape d, label_text h m d) :: flat_map (fun k => flat_map nodes_in (drawing k)) ts.
Proof.
  rewrite drawing_node. cbn [flat_map nodes_in app]. f_equal. destruct ts as [|k ts]; [reflexivity|]. cbn [flat_map nodes_in]. rewrite app_nil_r. apply (nodes_below n (k :: ts)).
Qed.
Lemma drawing_edges n d ts : flat_map edges_in (drawing (Node n d ts)) = flat_map (fun k => flat_map edges_in (drawing k) ++ [(n, rid k, points (rdata k))]) ts.
Proof.
  rewrite drawing_node. cbn [flat_map edges_in app]. destruct ts as [|k ts]; [reflexivity|]. cbn [flat_map edges_in]. rewrite app_nil_r. apply (edges_below n (k :: ts)).
Qed.
Lemma drawing_clusters n d ts : flat_map clusters_in (drawing (Node n d ts)) =
  match ts with [] => [] | _ => [(n, below n ts)] end ++ flat_map (fun k => flat_map clusters_in (drawing k)) ts.
Proof.
  rewrite drawing_node. cbn [flat_map clusters_in app]. destruct ts as [|k ts]; [reflexivity|]. cbn [flat_map clusters_in app]. rewrite app_nil_r.
  f_equal. apply (clusters_below n (k :: ts)).
Qed.

Lemma declared_ids t : declared (drawing t) = ids t.
Proof.
  induction t as [n d ts IH] using tree_ind'. unfold declared in *. rewrite drawing_nodes. cbn [map fst ids]. f_equal.
  induction IH as [|k ts E _ IHts]; [reflexivity|]. cbn [flat_map]. rewrite map_app, E, IHts. reflexivity.
Qed.
Lemma declared_below n ts : declared (below n ts) = flat_map ids ts.
Proof.
  unfold declared. rewrite nodes_below. induction ts as [|k ts IH]; [reflexivity|]. cbn [flat_map]. rewrite map_app, IH. f_equal. apply declared_ids.
Qed.
Lemma node_of t : forall u, subtree u t -> In (rid u, data_shape (rdata u), label_text h m (rdata u)) (flat_map nodes_in (drawing t)).
Proof.
  intros u U. induction U as [|n d ts s I U IH].
  - destruct u as [n d ts]. rewrite drawing_nodes. left. reflexivity.
  - rewrite drawing_nodes. right. apply in_flat_map. exists s. auto.
Qed.
Lemma edges_of t : forall p c a, In (p, c, a) (flat_map edges_in (drawing t)) <-> exists u k, subtree u t /\ In k (kids u) /\ p = rid u /\ c = rid k /\ a = points (rdata k).
Proof.
  induction t as [n d ts IH] using tree_ind'. rewrite Forall_forall in IH. intros p c a. rewrite drawing_edges, in_flat_map. split.
  - intros (k & Ik & I). apply in_app_iff in I. destruct I as [I|[I|[]]].
    + apply (IH k Ik) in I. destruct I as (u & v & U & R). exists u, v. split; [econstructor 2; eassumption|exact R].
    + injection I as <- <- <-. exists (Node n d ts), k. split; [constructor|]. auto.
  - intros (u & k & U & Ik & -> & -> & ->). inversion U as [|n' d' ts' s Is Us]; subst.
    + exists k. cbn [kids] in Ik. split; [exact Ik|]. apply in_app_iff. right. left. reflexivity.
    + exists s. split; [exact Is|]. apply in_app_iff. left. apply (IH s Is). exists u, k. auto.
Qed.
Definition target (e : nid * nid * head) : nid := snd (fst e).
Lemma targets t : Permutation (map target (flat_map edges_in (drawing t))) (flat_map ids (kids t)).
Proof.
  induction t as [n d ts IH] using tree_ind'. rewrite drawing_edges. cbn [kids].
  induction IH as [|k ts E _ IHts]; [constructor|]. cbn [flat_map]. rewrite map_app. apply Permutation_app; [|exact IHts].
  rewrite map_app. cbn [map target fst snd]. destruct k as [x y z]. cbn [kids rid ids] in *. rewrite Permutation_app_comm. constructor. exact E.
Qed.
Lemma edges_once t : NoDup (ids t) -> NoDup (flat_map edges_in (drawing t)).
Proof.
  intros N. apply (NoDup_map_inv target). eapply Permutation_NoDup; [symmetry; apply targets|]. destruct t as [n d ts]. cbn [kids]. inversion N; assumption.
Qed.
Lemma rank_below n ts is : In (IRank is) (below n ts) <-> is = map rid ts.
Proof.
  unfold below. rewrite in_app_iff. split.
  - intros [I|[I|[]]]; [|injection I; auto]. exfalso. apply in_flat_map in I. destruct I as (k & _ & I). apply in_app_iff in I. destruct I as [I|[I|[]]]; [|discriminate].
    destruct k as [x y z]. rewrite drawing_node in I. destruct I as [I|I]; [discriminate|]. destruct z; [contradiction|]. destruct I as [I|[]]. discriminate.
  - intros ->. right. left. reflexivity.
Qed.
Lemma clusters_of t : forall i part, In (i, part) (flat_map clusters_in (drawing t)) <-> exists u, subtree u t /\ i = rid u /\ kids u <> [] /\ part = below i (kids u).
Proof.
  induction t as [n d ts IH] using tree_ind'. rewrite Forall_forall in IH. intros i part. rewrite drawing_clusters, in_app_iff, in_flat_map. split.
  - intros [I|(k & Ik & I)].
    + exists (Node n d ts). destruct ts as [|k ts]; [contradiction|]. destruct I as [I|[]]. injection I as <- <-. cbn [rid kids]. split; [constructor|]. split; [reflexivity|]. split; [discriminate|reflexivity].
    + apply (IH k Ik) in I. destruct I as (u & U & R). exists u. split; [econstructor 2; eassumption|exact R].
  - intros (u & U & -> & K & ->). inversion U as [|n' d' ts' s Is Us]; subst.
    + left. cbn [kids rid] in *. destruct ts; [congruence|]. left. reflexivity.
    + right. exists s. split; [exact Is|]. apply (IH s Is). exists u. auto.
Qed.
Lemma drawing_draws t : NoDup (ids t) -> (forall u, subtree u t -> exists l, data_label h m (rdata u) = Some l) -> draws h m t (drawing t).
Proof.
  intros N La. split.
  - apply declared_ids.
  - intros u U. exists (data_shape (rdata u)), (label_text h m (rdata u)). split; [apply node_of; exact U|]. destruct (La u U) as (l & L).
    unfold label_text. rewrite L. apply data_label_spec. exact L.
  - apply edges_of.
  - apply edges_once. exact N.
  - intros i part I. apply clusters_of in I. destruct I as (u & U & -> & K & ->). exists u. split; [exact U|]. split; [reflexivity|]. split; [exact K|].
    split; [apply declared_below|]. intros is. apply rank_below.
  - intros u U K. exists (below (rid u) (kids u)). apply clusters_of. exists u. auto.
Qed.
End Drawing.

Lemma header_head this title name : graph_head this title name (header this title name).
Proof.
  exists (dot_escape title), (dot_escape (T "Feature model for " ++ name)). split; [apply escape_shown|]. split; [apply escape_shown|].
  unfold header, first_line. generalize (dot_escape (T "Feature model for " ++ name)). intros r. generalize (dot_escape title). intros q.
  change (indent 2) with (T "  ").
  change (quoted r) with (in_quotes r). change (quoted q) with (in_quotes q). change (quoted (T "CMU Typewriter")) with (in_quotes (T "CMU Typewriter")). change nl with newline.
  generalize (T "graph [pad=.5 nodesep=2 ranksep=2 splines=true newrank=true bgcolor=white rankdir=tb overlap=false fontname="). intros pad.
  destruct title; rewrite <- !app_assoc; reflexivity.
Qed.

Lemma graphs_draw ptr this h m t title : represents h m t -> registered_ok h m t ->
  exists start text, write_graph ptr this h m title = Some text /\ graph_head this title (m_name m) start /\ graph_text ptr start (drawing h m t) text /\ draws h m t (drawing h m t).
Proof.
  intros R Ro. pose proof (data_label_exists h m t Ro) as La. unfold write_graph. rewrite (rep_root _ _ _ R). cbn [bind].
  destruct (emit_spec h m ptr (S (h_next h)) t None 0 (rep_holds _ _ _ R)) as (x & -> & L).
  { eapply height_bound; [apply (rep_ok _ _ _ R)|apply (rep_holds _ _ _ R)|apply (rep_ids _ _ _ R)]. }
  { exact La. }
  cbn [bind]. exists (header this title (m_name m)). eexists. split; [reflexivity|]. split; [apply header_head|]. split.
  - exists x. split; [exact L|reflexivity].
  - apply drawing_draws; [apply (rep_ids _ _ _ R)|exact La].
Qed.
Lemma graphs_draw_the_tree ptr this h m t title : represents h m t -> registered_ok h m t ->
  exists start items text, write_graph ptr this h m title = Some text /\ graph_head this title (m_name m) start /\ graph_text ptr start items text /\ draws h m t items.
Proof. intros R Ro. destruct (graphs_draw ptr this h m t title R Ro) as (s & x & H). exists s, (drawing h m t), x. exact H. Qed.
