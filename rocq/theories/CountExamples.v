(** Models without constraints, with the number of their configurations. *)
From Coq Require Import List ZArith Arith Bool Ascii String Lia.
From Verif Require Import Text TextProofs ConstraintModel FeatureTreeModel FeatureTreeSpec FeatureTreeProofs FeatureTreeExamples FeatureTransactionModel FeatureEditSpec FeatureEditProofs FeatureTransactionExamples FeatureBuildSpec XmlModel
  SolverModel SolverSpec SolverLoadProofs SolverFinal SolverExamples CountSpec CountBase CountProofs CountFinal CountEdit.
Import ListNotations.
Local Open Scope string_scope.
Local Open Scope list_scope.

(** Root r with an alternative of a and b and an optional o; below o at least one of c and d,
    and n, which has one of three values. *)
Definition numc : feature := new_feature (FNumeric (VList [1; 2; 2; 4]%Z) None) (T "n") false [] [].
Definition optc : ndata := NFeature (new_feature FBinary (T "o") true [] []).
Definition tree_c : tree :=
  Node 0 (rootd "r") [Node 1 (NRelationship RAlternative) [Node 2 (binary "a") []; Node 3 (binary "b") []];
    Node 4 optc [Node 5 (NRelationship ROr) [Node 6 (binary "c") []; Node 7 (binary "d") []]; Node 8 (NFeature numc) []]].
Definition model_c : fmodel := model_of tree_c.
Definition heap_c : heap := plant 9 tree_c.
Lemma represents_c : represents heap_c model_c tree_c.
Proof.
  apply represents_plant.
  - cbn. repeat (constructor; [cbn; intuition congruence|]). constructor.
  - cbn. repeat constructor; lia.
  - reflexivity.
  - cbn. repeat (constructor; [cbn; intuition congruence|]). constructor.
  - repeat (first [apply grouped_feature; [cbn; lia|]|apply grouped_relationship|apply Forall_cons|apply Forall_nil]); reflexivity.
Qed.
Definition three : feature -> nat := fun _ => 3.

Fixpoint parts (u : tree) : list tree := match u with Node _ _ ts => u :: flat_map parts ts end.
Lemma parts_in u v : subtree u v -> In u (parts v).
Proof.
  intros S. induction S as [|n d ts v I S IH]; [destruct u; left; reflexivity|]. right. apply in_flat_map. exists v. auto.
Qed.
Lemma subtrees_c u : subtree u tree_c -> In u (tree_c :: kids tree_c ++ [Node 2 (binary "a") []; Node 3 (binary "b") []; Node 5 (NRelationship ROr) [Node 6 (binary "c") []; Node 7 (binary "d") []]; Node 6 (binary "c") []; Node 7 (binary "d") []; Node 8 (NFeature numc) []]).
Proof. intros U. apply parts_in in U. cbn in U. cbn. tauto. Qed.
Lemma supported_c : supported heap_c model_c.
Proof.
  assert (St : forall i f, stored heap_c model_c i f -> exists u, In u (tree_c :: kids tree_c ++ [Node 2 (binary "a") []; Node 3 (binary "b") []; Node 5 (NRelationship ROr) [Node 6 (binary "c") []; Node 7 (binary "d") []]; Node 6 (binary "c") []; Node 7 (binary "d") []; Node 8 (NFeature numc) []]) /\ rid u = i /\ rdata u = NFeature f).
  { intros i f Sf. apply (stored_sub _ _ _ represents_c) in Sf. destruct Sf as (u & U & E & D). exists u. split; [exact (subtrees_c u U)|auto]. }
  constructor.
  - intros i f Sf. destruct (St i f Sf) as (u & I & _ & D). cbn in I. repeat (destruct I as [<-|I]; [try discriminate D; injection D as <-; discriminate|]). destruct I.
  - intros i f p g r Sf K (c & C & Hg) Fg.
    assert (P : p = 0 \/ p = 4).
    { destruct (St i f Sf) as (u & I & <- & D). cbn in I.
      repeat (destruct I as [<-|I]; [try discriminate D; try (injection D as <-; discriminate K); injection C as <-; cbn in Hg;
        (destruct r as [k|]; [destruct Hg as (q & cq & Eq & Cq & Dq & Pq); injection Eq as <-; injection Cq as <-; try discriminate; injection Pq as <-; auto|injection Hg as <-; auto; discriminate])|]). destruct I. }
    destruct P as [-> | ->]; injection Fg as <-; reflexivity.
  - intros n ns (q & p & e & Iq & C & _ & F2) ->. destruct Iq as [<-|[<-|[]]]; [injection C as _ <-; inversion F2|discriminate C].
  - intros i f v step Sf K. destruct (St i f Sf) as (u & I & _ & D). cbn in I. repeat (destruct I as [<-|I]; [try discriminate D; injection D as <-; try discriminate K|]); [|destruct I]. injection K as <- <-. exact Logic.I.
  - intros c [].
  - intros x [].
Qed.
Lemma amounts_c : amounts three tree_c.
Proof.
  intros u f v step U D K. pose proof (subtrees_c u U) as I. cbn in I. repeat (destruct I as [<-|I]; [try discriminate D; injection D as <-; try discriminate K|]); [|destruct I]. injection K as <- <-.
  exists [1; 2; 4]%Z. split; [repeat (constructor; [cbn; lia|]); constructor|]. split; [reflexivity|]. intros z. cbn. tauto.
Qed.
Lemma plain_c : plain_groups tree_c.
Proof.
  intros u q k U Iq D. pose proof (subtrees_c u U) as I. cbn in I.
  destruct I as [<-|[<-|[<-|[<-|[<-|[<-|[<-|[<-|[<-|[]]]]]]]]]]; cbn in Iq; repeat destruct Iq as [<-|Iq]; try discriminate D; try destruct Iq;
    (split; [intros f E; injection E as <-; reflexivity|intros v Iv; cbn in Iv; destruct Iv as [<-|[<-|[]]]; eexists; split; reflexivity]).
Qed.
(** Two ways for the alternative; with o, three ways for c and d and three for n; without o,
    still three for n. *)
Lemma count_example : is_order order /\ represents heap_c model_c tree_c /\ supported heap_c model_c /\ all_constraints model_c = [] /\ amounts three tree_c /\ plain_groups tree_c /\
  ways three tree_c = 24 /\ idle three tree_c = 3.
Proof. split; [exact order_ok|]. split; [exact represents_c|]. split; [exact supported_c|]. split; [reflexivity|]. split; [exact amounts_c|]. split; [exact plain_c|]. split; reflexivity. Qed.

(** An optional feature doubles the number. *)
Definition extra : feature := new_feature FBinary (T "x") true [] [].
Lemma grown_example : countable three extra /\ countable three numc /\ get_feature model_c (f_name extra) = None /\ factor three extra = 2 /\ factor three numc = 3 /\
  factor three (new_feature FBinary (T "x") false [] []) = 1.
Proof.
  split; [left; reflexivity|]. split; [|repeat split; reflexivity]. right. exists (VList [1; 2; 2; 4]%Z), None. split; [reflexivity|]. split; [exact Logic.I|].
  exists [1; 2; 4]%Z. split; [repeat (constructor; [cbn; lia|]); constructor|]. split; [reflexivity|]. intros z. cbn. tauto.
Qed.

(** An or group without members leaves nothing. *)
Definition tree_e : tree := Node 0 (rootd "r") [Node 1 (NRelationship ROr) []].
Lemma empty_or_example : represents (plant 2 tree_e) (model_of tree_e) tree_e /\ supported (plant 2 tree_e) (model_of tree_e) /\ all_constraints (model_of tree_e) = [] /\ amounts three tree_e /\ plain_groups tree_e /\ ways three tree_e = 0.
Proof.
  assert (represents (plant 2 tree_e) (model_of tree_e) tree_e) as R by planted. split; [exact R|].
  assert (Su : forall u, subtree u tree_e -> u = tree_e \/ u = Node 1 (NRelationship ROr) []).
  { intros u U. unfold tree_e in *. inversion_clear U as [|? ? ? x I X]; [left; reflexivity|]. destruct I as [<-|[]]. inversion_clear X as [|? ? ? y J Y]; [right; reflexivity|destruct J]. }
  assert (St : forall i f, stored (plant 2 tree_e) (model_of tree_e) i f -> i = 0 /\ f = root_feature (T "r")).
  { intros i f Sf. apply (stored_sub _ _ _ R) in Sf. destruct Sf as (u & U & <- & D). destruct (Su u U) as [-> | ->]; [injection D as <-; auto|discriminate D]. }
  split; [|split; [reflexivity|split; [|split; [|reflexivity]]]].
  - constructor.
    + intros i f Sf. destruct (St i f Sf) as (_ & ->). discriminate.
    + intros i f p g r Sf K. destruct (St i f Sf) as (_ & ->). discriminate.
    + intros n ns (q & p & e & Iq & C & _). destruct Iq as [<-|[]]. discriminate C.
    + intros i f v step Sf K. destruct (St i f Sf) as (_ & ->). discriminate.
    + intros c [].
    + intros x [].
  - intros u f v step U D K. destruct (Su u U) as [-> | ->]; [injection D as <-; discriminate K|discriminate D].
  - intros u q k U I D. destruct (Su u U) as [-> | ->]; [|destruct I]. destruct I as [<-|[]]. split; [intros f E; injection E as <-; reflexivity|intros v []].
Qed.

(** Configurations that differ only in the value of a feature whose parent is not selected
    are counted apart. *)
Definition asgc (z : Z) : assignment := Assignment (fun s => text_eqb s (T "r") || text_eqb s (T "a") ) (fun _ => z) (fun _ => 0%Z).
Lemma valid_c z : In z [1; 2; 4]%Z -> SolverSpec.valid heap_c model_c (asgc z).
Proof.
  intros Iz.
  assert (St : forall i f, stored heap_c model_c i f -> exists u, In u (tree_c :: kids tree_c ++ [Node 2 (binary "a") []; Node 3 (binary "b") []; Node 5 (NRelationship ROr) [Node 6 (binary "c") []; Node 7 (binary "d") []]; Node 6 (binary "c") []; Node 7 (binary "d") []; Node 8 (NFeature numc) []]) /\ rid u = i /\ rdata u = NFeature f).
  { intros i f Sf. apply (stored_sub _ _ _ represents_c) in Sf. destruct Sf as (u & U & E & D). exists u. split; [exact (subtrees_c u U)|auto]. }
  constructor.
  - intros i f Sf K. destruct (St i f Sf) as (u & I & _ & D). cbn in I. repeat (destruct I as [<-|I]; [try discriminate D; injection D as <-; try discriminate K; reflexivity|]). destruct I.
  - intros i f p g r Sf K (c & C & Hg) Fg Se. destruct (St i f Sf) as (u & I & <- & D). cbn in I.
    repeat (destruct I as [<-|I]; [try discriminate D; injection D as <-; try discriminate K; try discriminate Se; injection C as <-; cbn in Hg;
      (destruct r as [k|]; [destruct Hg as (q & cq & Eq & Cq & Dq & Pq); injection Eq as <-; injection Cq as <-; try discriminate; injection Pq as <-; injection Fg as <-; reflexivity|injection Hg as <-; discriminate])|]). destruct I.
  - intros i f p g Sf K O (c & C & Hg) Fg _. destruct (St i f Sf) as (u & I & <- & D). cbn in I. cbn in Hg.
    repeat (destruct I as [<-|I]; [try discriminate D; injection D as <-; try discriminate K; try discriminate O; injection C as <-; injection Hg as <-; discriminate Fg|]). destruct I.
  - intros n ns (q & p & e & Iq & C & _ & F2) _. destruct Iq as [<-|[<-|[]]]; [|discriminate C]. injection C as <- <-.
    inversion_clear F2 as [|? ? ? ? A F3]. inversion_clear F3 as [|? ? ? ? B F4]. inversion_clear F4. injection A as <-. injection B as <-. exists (T "a"). split; [left; reflexivity|]. split; [reflexivity|]. intros s' [<-|[<-|[]]] Se; [reflexivity|discriminate Se].
  - intros n ns (q & p & e & Iq & C & N & F2) Se. destruct Iq as [<-|[<-|[]]]; [discriminate C|]. injection C as <- <-. injection N as <-. discriminate Se.
  - intros i f v step Sf K. destruct (St i f Sf) as (u & I & _ & D). cbn in I. repeat (destruct I as [<-|I]; [try discriminate D; injection D as <-; try discriminate K|]); [|destruct I]. injection K as <- <-. cbn in *. tauto.
  - intros c [].
  - intros x [].
Qed.
Lemma unselected_refuted : exists h m t a b i j f g, represents h m t /\ supported h m /\ all_constraints m = [] /\ SolverSpec.valid h m a /\ SolverSpec.valid h m b /\
  stored h m i f /\ stored h m j g /\ numeric_kind (f_kind g) = true /\ hangs h j i None /\ ~ selected a (f_name f) /\
  (forall n, a_bool a n = a_bool b n) /\ a_int a (f_name g) <> a_int b (f_name g).
Proof.
  exists heap_c, model_c, tree_c, (asgc 1), (asgc 2), 4, 8, (new_feature FBinary (T "o") true [] []), numc.
  split; [exact represents_c|]. split; [exact supported_c|]. split; [reflexivity|]. split; [apply valid_c; left; reflexivity|]. split; [apply valid_c; right; left; reflexivity|].
  split; [split; [vm_compute; tauto|reflexivity]|]. split; [split; [vm_compute; tauto|reflexivity]|]. split; [reflexivity|]. split; [eexists; split; [reflexivity|reflexivity]|]. split; [intros X; discriminate X|]. split; [reflexivity|]. intros X; discriminate X.
Qed.
