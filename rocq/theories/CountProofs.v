(** The ways to configure a tree, by induction over the tree. *)
From Coq Require Import List ZArith Arith Bool Ascii String Lia.
From Verif Require Import Text TextProofs FeatureTreeModel FeatureTreeSpec FeatureTreeProofs FeatureTransactionModel FeatureEditSpec FeatureEditProofs SolverModel SolverSpec EditValidSpec EditValidProofs CountSpec CountBase.
Import ListNotations.

Definition is_numeric (f : feature) : bool := numeric_kind (f_kind f).
Fixpoint opts (u : tree) : vars :=
  match u with Node _ d ts => match d with NFeature f => [(f_name f, if is_numeric f then SInt else SBool)] | NRelationship _ => [] end ++ flat_map opts ts end.
Lemma opts_in s so u : In (s, so) (opts u) <-> exists v f, subtree v u /\ rdata v = NFeature f /\ s = f_name f /\ so = if is_numeric f then SInt else SBool.
Proof.
  induction u as [n d ts IH] using tree_ind'. rewrite Forall_forall in IH. cbn [opts]. rewrite in_app_iff, in_flat_map. split.
  - intros [I|(k & K & I)].
    + destruct d as [f|]; [|destruct I]. destruct I as [I|[]]. injection I as <- <-. exists (Node n (NFeature f) ts), f. repeat split. constructor.
    + apply (IH k K) in I. destruct I as (v & f & V & R). exists v, f. split; [|exact R]. econstructor; eassumption.
  - intros (v & f & V & D & -> & ->). inversion V as [|? ? ? k K W]; subst.
    + left. cbn in D. subst d. left. reflexivity.
    + right. exists k. split; [exact K|]. apply (IH k K). exists v, f. auto.
Qed.

Section Amount.
Variable amount : feature -> nat.

(** What is needed of every node. *)
Definition fit_node (v : tree) : Prop :=
  match rdata v with
  | NFeature f =>
      match f_kind f with
      | FUnknown => False
      | FNumeric vs step => (forall k, In k (kids v) -> exists g, rdata k = NFeature g /\ is_numeric g = true) /\
          exists zs, NoDup zs /\ List.length zs = amount f /\ forall z, In z zs <-> allowed_value vs step z
      | _ => forall k g, In k (kids v) -> rdata k = NFeature g -> f_kind g <> FRoot
      end
  | NRelationship _ => forall k, In k (kids v) -> exists g, rdata k = NFeature g /\ f_kind g = FBinary
  end.
Definition fit (u : tree) : Prop := forall v, subtree v u -> fit_node v.
Lemma fit_kid n d ts k : fit (Node n d ts) -> In k ts -> fit k.
Proof. intros F I v V. apply F. econstructor; eassumption. Qed.
Lemma fit_top u : fit u -> fit_node u.
Proof. intros F. apply F. constructor. Qed.

Lemma bool_same u a b v f : same_values (opts u) a b -> subtree v u -> rdata v = NFeature f -> is_numeric f = false -> a_bool b (f_name f) = a_bool a (f_name f).
Proof.
  intros S V D N. specialize (S (f_name f) SBool). symmetry. apply S. apply opts_in. exists v, f. rewrite N. auto.
Qed.
Lemma binary_plain f : f_kind f = FBinary -> is_numeric f = false.
Proof. unfold is_numeric. intros ->. reflexivity. Qed.
Lemma in_names s us : In s (names_of us) <-> exists v g, In v us /\ rdata v = NFeature g /\ s = f_name g.
Proof.
  unfold names_of. rewrite in_flat_map. split.
  - intros (v & V & I). destruct (rdata v) as [g|] eqn:D; [|destruct I]. destruct I as [<-|[]]. eauto.
  - intros (v & g & V & D & ->). exists v. rewrite D. split; [exact V|left; reflexivity].
Qed.
Lemma rules_local u : fit u -> local (opts u) (fun a => rules a u).
Proof.
  intros F a b S Ra v V. specialize (Ra v V). pose proof (F v V) as Fv. unfold rules_at, fit_node in *. destruct (rdata v) as [f|] eqn:D; [|exact Ra]. destruct Ra as (R1 & R2 & R3).
  assert (K : forall k, In k (kids v) -> subtree k u) by (intros k I; destruct v as [n d ts]; exact (subtree_trans _ _ _ (subtree_kid n d ts k I) V)).
  destruct (f_kind f) as [|vs step| |] eqn:Kf; try contradiction.
  - assert (Nf : is_numeric f = false) by (unfold is_numeric; rewrite Kf; reflexivity). pose proof (bool_same u a b v f S V D Nf) as E. unfold needs, follows, chosen, selected in *.
    split; [discriminate|]. split; [intros w st X; rewrite Kf in X; discriminate X|]. intros k I. specialize (R3 k I). destruct (rdata k) as [g|r] eqn:Dk.
    + split; intros B; rewrite ?E, ?(bool_same u a b k g S (K k I) Dk (binary_plain g B)); apply R3; exact B.
    + pose proof (F k (K k I)) as Fk. unfold fit_node in Fk. rewrite Dk in Fk.
      assert (M : forall s, In s (names_of (kids k)) -> a_bool b s = a_bool a s).
      { intros s Is. apply in_names in Is. destruct Is as (w & g & W & Dw & ->). destruct (Fk w W) as (g' & Dw' & B). rewrite Dw in Dw'. injection Dw' as <-.
        apply (bool_same u a b w g S); [|exact Dw|exact (binary_plain g B)]. destruct k as [n d ts]. exact (subtree_trans _ _ _ (subtree_kid n d ts w W) (K _ I)). }
      destruct R3 as (R3 & R4). split.
      * intros w g W Dw B. rewrite E, M; [exact (R3 w g W Dw B)|]. apply in_names. eauto.
      * rewrite E. intros X. specialize (R4 X). destruct r; destruct R4 as (s & I1 & I2); exists s; (split; [exact I1|]); rewrite M by exact I1; [|exact I2].
        destruct I2 as (I2 & I3). split; [exact I2|]. intros s' J. rewrite M by exact J. exact (I3 s' J).
  - destruct Fv as (Fk & _). split; [discriminate|]. split.
    + intros w st X. assert (is_numeric f = true) as Nf by (unfold is_numeric; rewrite Kf; reflexivity). specialize (R2 w st X). specialize (S (f_name f) SInt). cbn in S. rewrite <- S; [exact R2|]. apply opts_in. exists v, f. rewrite Nf. auto.
    + intros k I. destruct (Fk k I) as (g & Dk & Ng). rewrite Dk. split; intros B; rewrite (binary_plain g B) in Ng; discriminate Ng.
  - assert (Nf : is_numeric f = false) by (unfold is_numeric; rewrite Kf; reflexivity). pose proof (bool_same u a b v f S V D Nf) as E. unfold needs, follows, chosen, selected in *.
    split; [intros _; rewrite E; exact (R1 eq_refl)|]. split; [intros w st X; rewrite Kf in X; discriminate X|]. intros k I. specialize (R3 k I). destruct (rdata k) as [g|r] eqn:Dk.
    + split; intros B; rewrite ?E, ?(bool_same u a b k g S (K k I) Dk (binary_plain g B)); apply R3; exact B.
    + pose proof (F k (K k I)) as Fk. unfold fit_node in Fk. rewrite Dk in Fk.
      assert (M : forall s, In s (names_of (kids k)) -> a_bool b s = a_bool a s).
      { intros s Is. apply in_names in Is. destruct Is as (w & g & W & Dw & ->). destruct (Fk w W) as (g' & Dw' & B). rewrite Dw in Dw'. injection Dw' as <-.
        apply (bool_same u a b w g S); [|exact Dw|exact (binary_plain g B)]. destruct k as [n d ts]. exact (subtree_trans _ _ _ (subtree_kid n d ts w W) (K _ I)). }
      destruct R3 as (R3 & R4). split.
      * intros w g W Dw B. rewrite E, M; [exact (R3 w g W Dw B)|]. apply in_names. eauto.
      * rewrite E. intros X. specialize (R4 X). destruct r; destruct R4 as (s & I1 & I2); exists s; (split; [exact I1|]); rewrite M by exact I1; [|exact I2].
        destruct I2 as (I2 & I3). split; [exact I2|]. intros s' J. rewrite M by exact J. exact (I3 s' J).
Qed.

(** What the rules say below a feature that is selected, *)
Definition picked (r : rkind) (ns : list text) (a : assignment) : Prop :=
  match r with
  | RAlternative => exists s, In s ns /\ selected a s /\ forall s', In s' ns -> selected a s' -> s' = s
  | ROr => exists s, In s ns /\ selected a s
  end.
Definition on_kid (k : tree) (a : assignment) : Prop :=
  match rdata k with
  | NFeature g => rules a k /\ (f_kind g = FBinary -> f_optional g = false -> a_bool a (f_name g) = true)
  | NRelationship r => rules a k /\ picked r (names_of (kids k)) a
  end.
Lemma rules_on n f ts a : is_numeric f = false -> a_bool a (f_name f) = true -> (rules a (Node n (NFeature f) ts) <-> forall k, In k ts -> on_kid k a).
Proof.
  intros Nf E. rewrite rules_node. unfold rules_at. cbn [rdata kids]. unfold on_kid, needs, follows, chosen, selected. split.
  - intros ((_ & _ & R3) & R4) k I. specialize (R3 k I). specialize (R4 k I). destruct (rdata k) as [g|r]; (split; [exact R4|]); [intros B O; exact (proj2 R3 B O E)|exact (proj2 R3 E)].
  - intros H. split; [split; [intros _; exact E|split; [intros v st X; unfold is_numeric in Nf; rewrite X in Nf; discriminate Nf|]]|].
    + intros k I. specialize (H k I). destruct (rdata k) as [g|r]; [split; [intros _ _; exact E|intros B O _; exact (proj2 H B O)]|split; [intros v g _ _ _ _; exact E|intros _; exact (proj2 H)]].
    + intros k I. specialize (H k I). destruct (rdata k); apply H.
Qed.
(** and below one that is not. *)
Definition off_kid (k : tree) (a : assignment) : Prop :=
  match rdata k with
  | NFeature g => rules a k /\ (f_kind g = FBinary -> a_bool a (f_name g) = false)
  | NRelationship r => rules a k /\ forall v g, In v (kids k) -> rdata v = NFeature g -> f_kind g = FBinary -> a_bool a (f_name g) = false
  end.
Lemma rules_off n f ts a : f_kind f = FBinary -> a_bool a (f_name f) = false -> (rules a (Node n (NFeature f) ts) <-> forall k, In k ts -> off_kid k a).
Proof.
  intros Kf E. rewrite rules_node. unfold rules_at. cbn [rdata kids]. unfold off_kid, needs, follows, chosen, selected. rewrite E. split.
  - intros ((_ & _ & R3) & R4) k I. specialize (R3 k I). specialize (R4 k I). destruct (rdata k) as [g|r]; (split; [exact R4|]).
    + intros B. destruct (a_bool a (f_name g)) eqn:G; [|reflexivity]. exact (eq_sym (proj1 R3 B eq_refl)).
    + intros v g V D B. destruct (a_bool a (f_name g)) eqn:G; [|reflexivity]. exact (eq_sym (proj1 R3 v g V D B G)).
  - intros H. split; [split; [rewrite Kf; discriminate|split; [intros v st X; rewrite Kf in X; discriminate X|]]|].
    + intros k I. specialize (H k I). destruct (rdata k) as [g|r].
      * split; [intros B X; rewrite (proj2 H B) in X; exact X|discriminate].
      * split; [intros v g V D B X; rewrite (proj2 H v g V D B) in X; exact X|discriminate].
    + intros k I. specialize (H k I). destruct (rdata k); apply H.
Qed.
Lemma rules_group n r ts a : rules a (Node n (NRelationship r) ts) <-> forall k, In k ts -> rules a k.
Proof. rewrite rules_node. unfold rules_at. cbn [rdata]. tauto. Qed.

(** Members of groups that are selected, and those that are not. *)
Definition name_of (u : tree) : text := match rdata u with NFeature g => f_name g | NRelationship _ => [] end.
Definition yes (u : tree) (a : assignment) : Prop := rules a u /\ a_bool a (name_of u) = true.
Definition no (u : tree) (a : assignment) : Prop := rules a u /\ a_bool a (name_of u) = false.
Lemma exactly_picked ts a : NoDup (map name_of ts) -> names_of ts = map name_of ts -> (exactly yes no ts a <-> (forall k, In k ts -> rules a k) /\ picked RAlternative (names_of ts) a).
Proof.
  intros D ->. unfold picked, selected. induction ts as [|k ts IH]; cbn [exactly map]; [split; [intros []|intros (_ & s & [] & _)]|]. inversion D as [|? ? D1 D2]; subst. specialize (IH D2). split.
  - intros [((Rk & Sk) & No)|((Rk & Nk) & E)].
    + split; [intros j [<-|J]; [exact Rk|apply (No j J)]|]. exists (name_of k). split; [left; reflexivity|]. split; [exact Sk|]. intros s' [<-|I] X; [reflexivity|]. apply in_map_iff in I. destruct I as (j & <- & J). destruct (No j J) as (_ & Y). rewrite Y in X. discriminate X.
    + apply IH in E. destruct E as (Rs & s & I & Ss & Un). split; [intros j [<-|J]; [exact Rk|exact (Rs j J)]|]. exists s. split; [right; exact I|]. split; [exact Ss|]. intros s' [<-|J] X; [rewrite Nk in X; discriminate X|exact (Un s' J X)].
  - intros (Rs & s & I & Ss & Un). destruct (a_bool a (name_of k)) eqn:Sk.
    + left. split; [split; [apply Rs; left; reflexivity|exact Sk]|]. intros j J. split; [apply Rs; right; exact J|]. destruct (a_bool a (name_of j)) eqn:Sj; [|reflexivity]. exfalso.
      pose proof (Un _ (or_introl eq_refl) Sk) as E1. pose proof (Un (name_of j) (or_intror (in_map name_of ts j J)) Sj) as E2. apply D1. rewrite E1, <- E2. apply in_map. exact J.
    + right. split; [split; [apply Rs; left; reflexivity|exact Sk]|]. apply IH. split; [intros j J; apply Rs; right; exact J|]. exists s. destruct I as [<-|I]; [rewrite Sk in Ss; discriminate Ss|]. split; [exact I|]. split; [exact Ss|]. intros s' J. apply Un. right. exact J.
Qed.
Lemma some_picked ts a : names_of ts = map name_of ts -> (some_part yes no ts a <-> (forall k, In k ts -> rules a k) /\ picked ROr (names_of ts) a).
Proof.
  intros ->. unfold picked, selected. induction ts as [|k ts IH]; cbn [some_part map]; [split; [intros []|intros (_ & s & [] & _)]|]. split.
  - intros [((Rk & Sk) & Any)|((Rk & Nk) & E)].
    + split; [intros j [<-|J]; [exact Rk|destruct (Any j J) as [X|X]; apply X]|]. exists (name_of k). split; [left; reflexivity|exact Sk].
    + apply IH in E. destruct E as (Rs & s & I & Ss). split; [intros j [<-|J]; [exact Rk|exact (Rs j J)]|]. exists s. split; [right; exact I|exact Ss].
  - intros (Rs & s & I & Ss). destruct (a_bool a (name_of k)) eqn:Sk.
    + left. split; [split; [apply Rs; left; reflexivity|exact Sk]|]. intros j J. unfold yes, no. assert (rules a j) as Rj by (apply Rs; right; exact J). destruct (a_bool a (name_of j)); [left|right]; split; auto.
    + right. split; [split; [apply Rs; left; reflexivity|exact Sk]|]. apply IH. split; [intros j J; apply Rs; right; exact J|]. exists s. destruct I as [<-|I]; [rewrite Sk in Ss; discriminate Ss|]. split; [exact I|exact Ss].
Qed.

(** The numbers. *)
Definition good (u : tree) : Prop :=
  match rdata u with
  | NFeature f =>
      if is_numeric f then counted (opts u) (fun a => rules a u) (idle amount u)
      else counted (opts u) (fun a => rules a u /\ a_bool a (f_name f) = true) (ways amount u) /\
           (f_kind f = FBinary -> counted (opts u) (fun a => rules a u /\ a_bool a (f_name f) = false) (idle amount u))
  | NRelationship r =>
      counted (opts u) (fun a => rules a u /\ picked r (names_of (kids u)) a) (ways amount u) /\
      counted (opts u) (fun a => rules a u /\ forall v g, In v (kids u) -> rdata v = NFeature g -> f_kind g = FBinary -> a_bool a (f_name g) = false) (idle amount u)
  end.
Definition on_number (k : tree) : nat :=
  match rdata k with
  | NFeature g => if numeric_kind (f_kind g) then idle amount k else if f_optional g then ways amount k + idle amount k else ways amount k
  | NRelationship _ => ways amount k
  end.
Lemma ways_feature n f ts : ways amount (Node n (NFeature f) ts) = product (map on_number ts).
Proof. reflexivity. Qed.
Lemma top_opt k g : rdata k = NFeature g -> is_numeric g = false -> In (f_name g, SBool) (opts k).
Proof. intros D N. apply opts_in. exists k, g. rewrite N. repeat split; [constructor|exact D]. Qed.
Lemma local_name vs n b : In (n, SBool) vs -> local vs (fun a => a_bool a n = b).
Proof. intros I. apply (local_more [(n, SBool)]); [intros v [<-|[]]; exact I|apply local_bool]. Qed.
Lemma members_local k : fit k -> (exists r, rdata k = NRelationship r) -> forall w g, In w (kids k) -> rdata w = NFeature g -> In (f_name g, SBool) (opts k) /\ f_kind g = FBinary.
Proof.
  intros F (r & D) w g W Dw. pose proof (fit_top k F) as Fk. unfold fit_node in Fk. rewrite D in Fk. destruct (Fk w W) as (g' & Dw' & B). rewrite Dw in Dw'. injection Dw' as <-. split; [|exact B].
  apply opts_in. exists w, g. rewrite (binary_plain g B). repeat split; [|exact Dw]. destruct k as [n d ts]. exact (subtree_kid n d ts w W).
Qed.
Lemma picked_local k r : fit k -> rdata k = NRelationship r -> forall r', local (opts k) (picked r' (names_of (kids k))).
Proof.
  intros F D r' a b S. assert (M : forall s, In s (names_of (kids k)) -> a_bool b s = a_bool a s).
  { intros s I. apply in_names in I. destruct I as (w & g & W & Dw & ->). symmetry. apply (S (f_name g) SBool). apply (members_local k F (ex_intro _ r D) w g W Dw). }
  unfold picked, selected. destruct r'.
  - intros (s & I & E & X). exists s. split; [exact I|]. split; [rewrite M; assumption|]. intros s' I' E'. apply X; [exact I'|]. rewrite <- M; assumption.
  - intros (s & I & E). exists s. split; [exact I|]. rewrite M; assumption.
Qed.
Lemma on_kid_local k : fit k -> local (opts k) (on_kid k).
Proof.
  intros F a b S. unfold on_kid. destruct (rdata k) as [g|r] eqn:D.
  - intros (R & X). split; [exact (rules_local k F a b S R)|]. intros B O. apply (local_name (opts k) (f_name g) true (top_opt k g D (binary_plain g B)) a b S). exact (X B O).
  - intros (R & X). split; [exact (rules_local k F a b S R)|]. exact (picked_local k r F D r a b S X).
Qed.
Lemma off_kid_local k : fit k -> local (opts k) (off_kid k).
Proof.
  intros F a b S. unfold off_kid. destruct (rdata k) as [g|r] eqn:D.
  - intros (R & X). split; [exact (rules_local k F a b S R)|]. intros B. apply (local_name (opts k) (f_name g) false (top_opt k g D (binary_plain g B)) a b S). exact (X B).
  - intros (R & X). split; [exact (rules_local k F a b S R)|]. intros w g W Dw B. apply (local_name (opts k) (f_name g) false (proj1 (members_local k F (ex_intro _ r D) w g W Dw)) a b S). exact (X w g W Dw B).
Qed.
Lemma on_counted k : fit k -> good k -> (forall g, rdata k = NFeature g -> f_kind g <> FRoot) -> counted (opts k) (on_kid k) (on_number k).
Proof.
  intros F G NR. unfold good, on_kid, on_number in *. destruct (rdata k) as [g|r] eqn:D; [|apply G]. pose proof (fit_top k F) as Fk. unfold fit_node in Fk. rewrite D in Fk. change (numeric_kind (f_kind g)) with (is_numeric g).
  destruct (is_numeric g) eqn:N.
  - revert G. apply counted_ext. intros a. split; [intros R; split; [exact R|intros B; rewrite (binary_plain g B) in N; discriminate N]|intros (R & _); exact R].
  - assert (f_kind g = FBinary) as B.
    { unfold is_numeric in N. specialize (NR g eq_refl). destruct (f_kind g); try reflexivity; [discriminate N|destruct (NR eq_refl)|destruct Fk]. }
    destruct G as (G1 & G2). specialize (G2 B). destruct (f_optional g) eqn:O.
    + apply (counted_ext _ (fun a => (rules a k /\ a_bool a (f_name g) = true) \/ (rules a k /\ a_bool a (f_name g) = false))).
      * intros a. split; [intros [(R & _)|(R & _)]; (split; [exact R|intros _ X; discriminate X])|]. intros (R & _). destruct (a_bool a (f_name g)); auto.
      * apply counted_or; [|intros a (_ & X) (_ & Y); congruence|exact G1|exact G2]. apply local_and; [apply rules_local; exact F|]. apply local_name. exact (top_opt k g D N).
    + revert G1. apply counted_ext. intros a. split; [intros (R & X); split; [exact R|intros _ _; exact X]|intros (R & X); split; [exact R|exact (X B eq_refl)]].
Qed.
Lemma off_counted k : fit k -> good k -> (forall g, rdata k = NFeature g -> f_kind g <> FRoot) -> counted (opts k) (off_kid k) (idle amount k).
Proof.
  intros F G NR. unfold good, off_kid in *. destruct (rdata k) as [g|r] eqn:D; [|apply G]. pose proof (fit_top k F) as Fk. unfold fit_node in Fk. rewrite D in Fk.
  destruct (is_numeric g) eqn:N.
  - revert G. apply counted_ext. intros a. split; [intros R; split; [exact R|intros B; rewrite (binary_plain g B) in N; discriminate N]|intros (R & _); exact R].
  - assert (f_kind g = FBinary) as B.
    { unfold is_numeric in N. specialize (NR g eq_refl). destruct (f_kind g); try reflexivity; [discriminate N|destruct (NR eq_refl)|destruct Fk]. }
    destruct G as (_ & G2). specialize (G2 B). revert G2. apply counted_ext. intros a. split; [intros (R & X); split; [exact R|intros _; exact X]|intros (R & X); split; [exact R|exact (X B)]].
Qed.
End Amount.
