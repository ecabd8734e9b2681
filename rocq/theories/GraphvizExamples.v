(** Models for the DOT writer. *)
From Coq Require Import List ZArith NArith Arith Bool Ascii String Lia Permutation.
From Verif Require Import Text TextProofs ConstraintModel ConstraintSpec ConstraintHeapSpec ConstraintHeapProofs SourceRangeModel.
From Verif Require Import SxfmModel XmlTextSpec XmlTextProofs FeatureTreeModel FeatureTreeSpec FeatureTreeProofs FeatureTreeExamples FeatureTransactionModel FeatureEditSpec FeatureEditProofs FeatureTransactionExamples.
From Verif Require Import GraphvizModel GraphvizSpec GraphvizProofs GraphvizFinal GraphvizReadProofs GraphvizLabelProofs.
Import ListNotations.
Local Open Scope string_scope.
Local Open Scope list_scope.

Definition ptr30 (i : nid) : text := T "0x" ++ repeat "f"%char i.
Lemma pointers30 : prints_pointers ptr30.
Proof.
  split.
  - intros i c I. unfold ptr30 in I. apply in_app_iff in I. destruct I as [I|I].
    + destruct I as [<-|[<-|[]]]; unfold hex_digit; cbn; tauto.
    + apply repeat_spec in I. subst c. unfold hex_digit. cbn. tauto.
  - intros i j E. unfold ptr30 in E. apply app_inv_head in E. apply (f_equal (@List.length ascii)) in E. rewrite !repeat_length in E. exact E.
Qed.

(** Root r with an alternative group of a and b and an optional c; "a => c" is registered
    with a and c. *)
Definition a30 : feature := Feature FBinary (T "a") (T " -a ") [SourceRange (T "f.c") (Some (Loc 1 2)) None Necessary None None] [(100, 0)] [] [100] false.
Definition c30 : feature := Feature FBinary (T "c") [] [] [(100, 1)] [] [100] true.
Definition tree30 : tree :=
  Node 0 (rootd "r") [Node 1 (NRelationship RAlternative) [Node 2 (NFeature a30) []; Node 3 (binary "b") []]; Node 4 (NFeature c30) []].
Definition heap30 : heap := plant 5 tree30.
Definition model30 : fmodel := FModel (T "m") (Some 0) (T "p") [] (named tree30) [MConstraint 100 (CBin BImplies (CFeat (Ref 2)) (CFeat (Ref 4)))] [] [] [1].
Lemma represents30 : represents heap30 model30 tree30.
Proof. assert (represents heap30 (model_of tree30) tree30) as R by planted. destruct R; constructor; assumption. Qed.

Lemma subtrees t : forall u, subtree u t -> u = t \/ exists k, In k (kids t) /\ subtree u k.
Proof. intros u U. destruct U as [|n d ts s I U]; [left; reflexivity|right; exists s; auto]. Qed.
Lemma subtrees30 u : subtree u tree30 -> In u [tree30; Node 1 (NRelationship RAlternative) [Node 2 (NFeature a30) []; Node 3 (binary "b") []]; Node 2 (NFeature a30) []; Node 3 (binary "b") []; Node 4 (NFeature c30) []].
Proof.
  intros U. apply subtrees in U. destruct U as [->|(k & Ik & U)]; [cbn; tauto|]. destruct Ik as [<-|[<-|[]]].
  - apply subtrees in U. destruct U as [->|(k & Ik & U)]; [cbn; tauto|]. destruct Ik as [<-|[<-|[]]]; apply subtrees in U; destruct U as [->|(k & [] & U)]; cbn; tauto.
  - apply subtrees in U. destruct U as [->|(k & [] & U)]; cbn; tauto.
Qed.
Lemma owned30 id e : owned_by model30 id e -> e = CBin BImplies (CFeat (Ref 2)) (CFeat (Ref 4)).
Proof. intros (c & _ & <- & [[<-|[]]|[[]|(x & [] & _)]]). reflexivity. Qed.
Lemma spelled30 x : spelled_out heap30 (CBin BImplies (CFeat (Ref 2)) (CFeat (Ref 4))) x <-> x = CBin BImplies (CFeat (T "a")) (CFeat (T "c")).
Proof. rewrite <- named_expr_iff. cbn. split; [intros E; injection E as <-; reflexivity|intros ->; reflexivity]. Qed.
Lemma registered30 : registered_ok heap30 model30 tree30.
Proof.
  split.
  - intros u f k U D I. exists (CBin BImplies (CFeat (Ref 2)) (CFeat (Ref 4))), (CBin BImplies (CFeat (T "a")) (CFeat (T "c"))).
    assert (fst k = 100) as ->.
    { apply subtrees30 in U. destruct U as [<-|[<-|[<-|[<-|[<-|[]]]]]]; cbn in D; try discriminate D; injection D as <-; cbn in I; try contradiction; destruct I as [<-|[]]; reflexivity. }
    split; [|apply spelled30; reflexivity]. exists (MConstraint 100 (CBin BImplies (CFeat (Ref 2)) (CFeat (Ref 4)))). cbn. auto.
  - intros id e e' O O'. apply owned30 in O, O'. congruence.
Qed.
Lemma one_line30 : one_line tree30.
Proof.
  intros u f o U D To. apply trim_iff in To. subst o. apply subtrees30 in U. destruct U as [<-|[<-|[<-|[<-|[<-|[]]]]]]; cbn in D; try discriminate D; injection D as <-; apply no_newline_dec; reflexivity.
Qed.
Ltac plainly := repeat first [constructor | intros [X|[X|X]]; discriminate X].
Lemma plain30 : without_markup heap30 model30 tree30.
Proof.
  split.
  - intros u f U D. apply subtrees30 in U. destruct U as [<-|[<-|[<-|[<-|[<-|[]]]]]]; cbn in D; try discriminate D; injection D as <-; cbn; (split; [|split]); plainly.
  - intros u f k e x U D I O Sp. apply owned30 in O. subst e. apply spelled30 in Sp. subst x. split; [cbn; plainly|]. cbn. tauto.
Qed.
Lemma graph_example : represents heap30 model30 tree30 /\ registered_ok heap30 model30 tree30 /\ one_line tree30 /\ without_markup heap30 model30 tree30 /\ prints_pointers ptr30 /\
  option_map U (write_graph ptr30 (T "0xabc") heap30 model30 (T "x")) = Some
"digraph ""x"" {
  graph [pad=.5 nodesep=2 ranksep=2 splines=true newrank=true bgcolor=white rankdir=tb overlap=false fontname=""CMU Typewriter"" label=""Feature model for m""];

  node_0x [shape=box margin=.1 fontsize=12 fontname=""CMU Typewriter"" label=<<table align=""center"" valign=""middle"" border=""0"" cellborder=""0"" cellpadding=""5""><tr><td><b>r (Flag: )</b></td></tr></table>>];
  subgraph cluster_0x {
    label="""";
    margin=0;
    style=invis;
    node_0xf [shape=ellipse margin=.1 fontsize=12 fontname=""CMU Typewriter"" label=ALTERNATIVE];
    subgraph cluster_0xf {
      label="""";
      margin=0;
      style=invis;
      node_0xff [shape=box margin=.1 fontsize=12 fontname=""CMU Typewriter"" label=<<table align=""center"" valign=""middle"" border=""0"" cellborder=""0"" cellpadding=""5""><tr><td><b>a (Flag: -a)</b></td></tr><tr><td>(a =&gt; c)</td></tr><hr/><tr><td><b>f.c:1:2</b></td></tr></table>>];
      node_0xf -> node_0xff [arrowhead=dot];
      node_0xfff [shape=box margin=.1 fontsize=12 fontname=""CMU Typewriter"" label=<<table align=""center"" valign=""middle"" border=""0"" cellborder=""0"" cellpadding=""5""><tr><td><b>b (Flag: )</b></td></tr></table>>];
      node_0xf -> node_0xfff [arrowhead=dot];
      {
        rank=same;
        node_0xff;
        node_0xfff;
      }
    }
    node_0x -> node_0xf [arrowhead=none];
    node_0xffff [shape=box margin=.1 fontsize=12 fontname=""CMU Typewriter"" label=<<table align=""center"" valign=""middle"" border=""0"" cellborder=""0"" cellpadding=""5""><tr><td><b>c (Flag: )</b></td></tr><tr><td>(a =&gt; c)</td></tr></table>>];
    node_0x -> node_0xffff [arrowhead=odot];
    {
      rank=same;
      node_0xf;
      node_0xffff;
    }
  }
}
".
Proof.
  split; [exact represents30|]. split; [exact registered30|]. split; [exact one_line30|]. split; [exact plain30|]. split; [exact pointers30|]. vm_compute. reflexivity.
Qed.

(** Root r with a; the formula "(r => a) & a" is registered with a. *)
Definition a31 : feature := Feature FBinary (T "a") [] [] [(100, 0)] [] [] false.
Definition tree31 : tree := Node 0 (rootd "r") [Node 1 (NFeature a31) []].
Definition heap31 : heap := plant 2 tree31.
Definition formula31 : cexpr cref := CBin BAnd (CBin BImplies (CFeat (Ref 0)) (CFeat (Ref 1))) (CFeat (Ref 1)).
Definition model31 : fmodel := FModel (T "m") (Some 0) (T "p") [] (named tree31) [MConstraint 100 formula31] [] [] [].
Lemma represents31 : represents heap31 model31 tree31.
Proof. assert (represents heap31 (model_of tree31) tree31) as R by planted. destruct R; constructor; assumption. Qed.
Lemma subtrees31 u : subtree u tree31 -> u = tree31 \/ u = Node 1 (NFeature a31) [].
Proof.
  intros U. apply subtrees in U. destruct U as [->|(k & Ik & U)]; [auto|]. destruct Ik as [<-|[]]. apply subtrees in U. destruct U as [->|(k & [] & U)]; auto.
Qed.
Lemma registered31 : registered_ok heap31 model31 tree31.
Proof.
  split.
  - intros u f k U D I. exists formula31, (CBin BAnd (CBin BImplies (CFeat (T "r")) (CFeat (T "a"))) (CFeat (T "a"))).
    assert (fst k = 100) as ->.
    { apply subtrees31 in U. destruct U as [->| ->]; cbn in D; injection D as <-; cbn in I; try contradiction; destruct I as [<-|[]]; reflexivity. }
    split; [|apply named_expr_iff; reflexivity]. exists (MConstraint 100 formula31). cbn. auto.
  - intros id e e' (c & _ & <- & [[<-|[]]|[[]|(x & [] & _)]]) (c' & _ & <- & [[<-|[]]|[[]|(x' & [] & _)]]). reflexivity.
Qed.
Definition label31 : text := label_text heap31 model31 (NFeature a31).
Lemma nested_label : exists h m t items i l, represents h m t /\ registered_ok h m t /\
  (forall u f, subtree u t -> rdata u = NFeature f -> Forall (fun c => ~ markup c) (f_name f) /\ f_output f = [] /\ f_locations f = []) /\
  (forall ptr this title, exists start text, write_graph ptr this h m title = Some text /\ graph_head this title (m_name m) start /\ graph_text ptr start items text) /\
  draws h m t items /\ In (i, Box, l) (flat_map nodes_in items) /\ ~ html_string l.
Proof.
  exists heap31, model31, tree31, (drawing heap31 model31 tree31), 1, label31.
  split; [exact represents31|]. split; [exact registered31|]. split.
  - intros u f U D. apply subtrees31 in U. destruct U as [->| ->]; cbn in D; injection D as <-; cbn; (split; [plainly|auto]).
  - split.
    + intros ptr this title. destruct (graphs_draw ptr this heap31 model31 tree31 title represents31 registered31) as (s & x & W & H & G & _). exists s, x. auto.
    + split; [|split].
      * apply drawing_draws; [apply (rep_ids _ _ _ represents31)|apply data_label_exists; exact registered31].
      * apply (node_of heap31 model31 tree31 (Node 1 (NFeature a31) [])). apply subtree_kid. left. reflexivity.
      * intros H. apply html_string_count in H. revert H. vm_compute. discriminate.
Qed.

(** Root r with the output "-x <". *)
Definition tree32 : tree := Node 0 (NFeature (new_feature FRoot (T "r") false [] (T "-x <"))) [].
Definition heap32 : heap := plant 1 tree32.
Definition model32 : fmodel := model_of tree32.
Lemma represents32 : represents heap32 model32 tree32.
Proof. planted. Qed.
Lemma registered32 : registered_ok heap32 model32 tree32.
Proof.
  split.
  - intros u f k U D I. apply subtrees in U. destruct U as [->|(q & [] & U)]. cbn in D. injection D as <-. destruct I.
  - intros id e e' (c & _ & <- & [[]|[[]|(x & [] & _)]]).
Qed.
Lemma output_label : exists h m t items i l, represents h m t /\ registered_ok h m t /\ m_boolean m = [] /\ m_nonboolean m = [] /\ m_mixed m = [] /\
  (forall u f, subtree u t -> rdata u = NFeature f -> Forall (fun c => ~ markup c) (f_name f) /\ f_locations f = []) /\
  (forall ptr this title, exists start text, write_graph ptr this h m title = Some text /\ graph_head this title (m_name m) start /\ graph_text ptr start items text) /\
  draws h m t items /\ In (i, Box, l) (flat_map nodes_in items) /\ ~ html_string l.
Proof.
  exists heap32, model32, tree32, (drawing heap32 model32 tree32), 0, (label_text heap32 model32 (rdata tree32)).
  split; [exact represents32|]. split; [exact registered32|]. do 3 (split; [reflexivity|]). split.
  - intros u f U D. apply subtrees in U. destruct U as [->|(q & [] & U)]. cbn in D. injection D as <-. cbn. split; [plainly|auto].
  - split.
    + intros ptr this title. destruct (graphs_draw ptr this heap32 model32 tree32 title represents32 registered32) as (s & x & W & H & G & _). exists s, x. auto.
    + split; [|split].
      * apply drawing_draws; [apply (rep_ids _ _ _ represents32)|apply data_label_exists; exact registered32].
      * apply (node_of heap32 model32 tree32 tree32). constructor.
      * intros H. apply html_string_count in H. revert H. vm_compute. discriminate.
Qed.
