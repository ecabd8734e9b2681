(** Models that are printed. *)
From Coq Require Import List ZArith NArith Arith Bool Ascii String Lia Permutation.
From Verif Require Import Text TextProofs SourceRangeModel FeatureTreeModel FeatureTreeSpec FeatureTreeProofs FeatureTreeExamples FeatureTransactionModel FeatureEditSpec FeatureEditProofs FeatureTransactionExamples.
From Verif Require Import GraphvizSpec GraphvizReadProofs GraphvizExamples DumpModel DumpSpec DumpProofs DumpFinal.
Import ListNotations.
Local Open Scope string_scope.
Local Open Scope list_scope.

(** Members of groups are not listed among the children of the feature they state. *)
Lemma grouped_features : exists h m t, represents h m t /\ forall order, (forall l, Permutation (order l) l) ->
  exists es e e', dump_model order h m = Some (dumped es) /\ lists t es /\ In e es /\ In e' es /\ e_parent e = Some (e_name e') /\ ~ In (e_name e) (e_children e').
Proof.
  exists heap30, model30, tree30. split; [exact represents30|]. intros order Or. destruct (dump_lists order heap30 model30 tree30 represents30 Or) as (es & D & L).
  destruct (lists_entry tree30 es L (Node 2 (NFeature a30) [])) as (e & Ie & Se); [|reflexivity|].
  { eapply sub_kid; [left; reflexivity|]. eapply sub_kid; [left; reflexivity|]. constructor. }
  destruct (lists_entry tree30 es L tree30) as (e' & Ie' & Se'); [constructor|reflexivity|].
  exists es, e, e'. split; [exact D|]. split; [exact L|]. split; [exact Ie|]. split; [exact Ie'|].
  destruct (st_feature _ _ _ Se) as (f & Df & En & _). injection Df as <-. destruct (st_feature _ _ _ Se') as (g & Dg & En' & _). split.
  - apply (st_parent _ _ _ Se); [discriminate|]. exists tree30, g. split; [constructor|]. split; [exact Dg|]. split; [left; reflexivity|exact En'].
  - rewrite En, (st_children _ _ _ Se'). intros [X|[]]. discriminate X.
Qed.

(** A tree with a location, a range and a list of values. *)
Definition n31 (s : string) (v : values) (o : bool) := NFeature (Feature (FNumeric v None) (T s) [] [] [] [] [] o).
Definition a31 : feature := Feature FBinary (T "a") [] [SourceRange (T "f.c") (Some (Loc 1 2)) None Necessary None None] [] [] [] true.
Definition tree31 : tree := Node 0 (rootd "r") [Node 1 (NFeature a31) [Node 2 (n31 "n" (VRange (-1) 20) false) []]; Node 3 (n31 "v" (VList [3; -4]%Z) true) []].
Definition heap31 : heap := plant 4 tree31.
Definition model31 : fmodel := model_of tree31.
Lemma represents31 : represents heap31 model31 tree31.
Proof. planted. Qed.
Lemma subtrees31 u : subtree u tree31 -> In u [tree31; Node 1 (NFeature a31) [Node 2 (n31 "n" (VRange (-1) 20) false) []]; Node 2 (n31 "n" (VRange (-1) 20) false) []; Node 3 (n31 "v" (VList [3; -4]%Z) true) []].
Proof.
  intros U. apply subtrees in U. destruct U as [->|(k & Ik & U)]; [cbn; tauto|]. destruct Ik as [<-|[<-|[]]].
  - apply subtrees in U. destruct U as [->|(k & Ik & U)]; [cbn; tauto|]. destruct Ik as [<-|[]]; apply subtrees in U; destruct U as [->|(k & [] & U)]; cbn; tauto.
  - apply subtrees in U. destruct U as [->|(k & [] & U)]; cbn; tauto.
Qed.
Lemma not_in (c : ascii) (a : text) : existsb (Ascii.eqb c) a = false -> ~ In c a.
Proof. intros E I. assert (existsb (Ascii.eqb c) a = true) as X; [|congruence]. apply existsb_exists. exists c. split; [exact I|apply Ascii.eqb_refl]. Qed.
Lemma printable31 : printable tree31.
Proof.
  intros u f U D. apply subtrees31 in U. destruct U as [<-|[<-|[<-|[<-|[]]]]]; cbn in D; injection D as <-; (split; [apply not_in; reflexivity|]); (split; [apply not_in; reflexivity|]); intros r I; cbn in I; try contradiction.
  destruct I as [<-|[]]. split; apply not_in; vm_compute; reflexivity.
Qed.
Lemma ungrouped31 : ungrouped tree31.
Proof. intros u U. apply subtrees31 in U. destruct U as [<-|[<-|[<-|[<-|[]]]]]; reflexivity. Qed.
Lemma dump_example : represents heap31 model31 tree31 /\ printable tree31 /\ ungrouped tree31 /\ option_map U (dump_model (fun l => l) heap31 model31) = Some
"{
  name: ""r"",
  optional: false,
  children: [a,v,]
}
{
  name: ""a"",
  optional: true,
  locations: [f.c:1:2],
  parent: r,
  children: [n,]
}
{
  name: ""n"",
  optional: false,
  parent: a,
  children: [],
  minValue: -1,
  maxValue: 20
}
{
  name: ""v"",
  optional: true,
  parent: r,
  children: [],
  values: [3,-4,]
}

".
Proof. split; [exact represents31|]. split; [exact printable31|]. split; [exact ungrouped31|]. vm_compute. reflexivity. Qed.
