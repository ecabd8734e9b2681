From Coq Require Import List Arith Bool Ascii Permutation Lia.
From Verif Require Import Text FeatureTreeModel FeatureTreeSpec FeatureTreeProofs FeatureTransactionModel FeatureEditSpec FeatureEditProofs
  FeatureOpsProofs FeatureRemoveProofs FeatureHistoryProofs FeatureTransactionSpec FeatureTransactionFinal FeatureBulkSpec.
Import ListNotations.

Lemma rid_prune f t : rid (prune f t) = rid t.
Proof. destruct t; reflexivity. Qed.

Lemma prune_kid_ids f ts :
  map rid (flat_map (fun k => if Nat.eqb (rid k) f then [] else [prune f k]) ts) = filter (fun j => negb (Nat.eqb j f)) (map rid ts).
Proof.
  induction ts as [|t ts IH]; [reflexivity|]. cbn [flat_map map filter]. rewrite map_app, IH.
  destruct (Nat.eqb (rid t) f); cbn [negb map app]; [reflexivity|]. rewrite rid_prune. reflexivity.
Qed.

Lemma entries_prune f : forall t p i c', In (i, c') (entries p (prune f t)) ->
  exists c, In (i, c) (entries p t) /\ c' = Cell (n_data c) (n_parent c) (filter (fun j => negb (Nat.eqb j f)) (n_edges c)).
Proof.
  induction t as [n d ts IH] using tree_ind'. intros p i c' I. cbn [prune entries] in I. rewrite prune_kid_ids in I. destruct I as [E|I].
  - injection E as <- <-. eexists. split; [left; reflexivity|]. reflexivity.
  - apply in_flat_map in I. destruct I as (u & U & I). apply in_flat_map in U. destruct U as (k & K & U).
    destruct (Nat.eqb (rid k) f); [destruct U|]. destruct U as [<-|[]].
    rewrite Forall_forall in IH. destruct (IH k K _ _ _ I) as (c & C & E). exists c. split; [|exact E]. right. apply in_flat_map. eauto.
Qed.

Section Bulk.
Variable ord : list nid -> list nid.
Hypothesis ord_ok : is_order ord.
Variable part_order : list nref -> list nref.
Hypothesis part_ok : any_partition part_order.

(** Removing one node without children. *)
Lemma remove_one h m t r s :
  represents h m t -> resolve m r = Some (rid s) -> subtree s t -> is_feature (rdata s) = true -> rid s <> rid t -> kids s = [] ->
  exists h' m' t', exec ord (ORemoveFeature r false) (h, m) = Some ((h', m'), None) /\ represents h' m' t' /\ rid t' = rid t /\
    same_rest m m' /\ (forall i, In i (nodes m') <-> In i (nodes m) /\ i <> rid s) /\ thinned h h' m' /\
    (forall i, ~ In i (nodes m) -> h_cells h' i = h_cells h i) /\ h_cells h' (rid s) = None.
Proof.
  intros R E S1 F N K. destruct (remove_exact ord ord_ok false h m t r s R E S1 F N) as (h' & m' & X & R' & Sr & Nd & G & Fr).
  { right. rewrite K. reflexivity. }
  assert (ids s = [rid s]) as Is by (destruct s as [n d ts]; cbn [kids] in K; subst ts; reflexivity).
  assert (forall i, In i (nodes m') <-> In i (nodes m) /\ i <> rid s) as Nd'.
  { intros i. rewrite Nd, Is. cbn [In]. split; intros (A & B); (split; [exact A|]); intros Y; apply B; [left; auto|destruct Y as [Y|[]]; auto]. }
  exists h', m', (prune (rid s) t). split; [exact X|]. split; [exact R'|]. split; [apply rid_prune|]. split; [exact Sr|]. split; [exact Nd'|].
  split; [|split; [intros i I; apply Fr; intros Y; apply I; apply (rep_node R); exact Y|apply G; apply rid_in_ids]].
  intros i I. pose proof I as Ii. apply (rep_node R') in Ii. destruct (holds_live h' None _ i (rep_holds _ _ _ R') Ii) as (c' & C' & Ie).
  apply entries_prune in Ie. destruct Ie as (c & Ie & ->). pose proof (rep_holds _ _ _ R i c Ie) as C. eexists _, _. split; [exact C|]. split; [exact C'|].
  apply filter_ext_in. intros j Ij. apply eq_true_iff_eq. rewrite negb_true_iff, Nat.eqb_neq, mem_spec, Nd'.
  pose proof (represents_tree_shaped _ _ _ R) as TS. apply Nd' in I. destruct (ts_listed _ _ TS i c j (proj1 I) C Ij) as (Jn & _). tauto.
Qed.

Lemma thinned_trans h h1 h2 m1 m2 : thinned h h1 m1 -> thinned h1 h2 m2 -> (forall i, In i (nodes m2) -> In i (nodes m1)) -> thinned h h2 m2.
Proof.
  intros A B Su i I. destruct (B i I) as (c1 & e2 & C1 & C2 & E2). destruct (A i (Su i I)) as (c & e1 & C & C1' & E1).
  rewrite C1' in C1. injection C1 as <-. cbn [n_data n_parent n_edges] in *. eexists c, e2. split; [exact C|]. split; [exact C2|].
  rewrite E2, E1, filter_filter. apply filter_ext. intros j. destruct (mem j (nodes m2)) eqn:M; [|apply andb_false_r].
  apply mem_spec, Su, mem_spec in M. rewrite M. reflexivity.
Qed.

(** References keep their meaning as long as the feature is there. *)
Lemma resolve_kept h m t h' m' t' r i : represents h m t -> represents h' m' t' -> thinned h h' m' ->
  (forall j, In j (nodes m') -> In j (nodes m)) -> ref_ok m r -> resolve m r = Some i -> In i (nodes m') -> ref_ok m' r /\ resolve m' r = Some i.
Proof.
  intros R R' Th Su O E I. destruct (rep_resolve R r i O E) as (s & f & S1 & Es & Fs). subst i.
  pose proof I as Ii. apply (rep_node R') in Ii. destruct (ids_subtree _ _ Ii) as (s' & S1' & Es').
  destruct (Th _ I) as (c & es & C & C' & _). destruct (rep_cell R s S1) as (q & Cs). rewrite Cs in C. injection C as <-.
  destruct (rep_cell R' s' S1') as (q' & Cs'). rewrite Es', C' in Cs'. injection Cs' as Ed _ _. cbn [n_data] in Ed. rewrite Fs in Ed.
  destruct r as [x|n]; cbn [ref_ok resolve] in *.
  - split; [exact Logic.I|]. apply (rep_find R'). apply named_subtree. exists s', f. split; [exact S1'|]. split; [exact Es'|]. split; [auto|].
    apply (rep_find R) in E. apply named_subtree in E. destruct E as (u & g & U & Eu & Fu & Nu).
    assert (u = s) as -> by (apply (subtree_unique t); auto; apply (rep_ids _ _ _ R)). rewrite Fs in Fu. injection Fu as <-. auto.
  - injection E as ->. split; [|reflexivity]. apply (rep_feature_node R'). exists s', f. auto.
Qed.
Lemma resolve_none h m t h' m' t' r : represents h m t -> represents h' m' t' -> thinned h h' m' ->
  (forall j, In j (nodes m') -> In j (nodes m)) -> resolve m r = None -> ref_ok m' r /\ resolve m' r = None.
Proof.
  intros R R' Th Su E. destruct r as [x|n]; cbn [resolve] in *; [|discriminate]. split; [exact Logic.I|].
  destruct (get_feature m' x) as [i|] eqn:G; [|reflexivity]. exfalso. apply (rep_find R') in G. apply named_subtree in G.
  destruct G as (u & f & U & Eu & Fu & Nu). assert (In i (nodes m')) as I by (apply (rep_node R'); rewrite <- Eu; eapply subtree_ids; [exact U|apply rid_in_ids]).
  destruct (Th _ I) as (c & es & C & C' & _). destruct (rep_cell R' u U) as (q & Cu). rewrite Eu, C' in Cu. injection Cu as Ed _ _. rewrite Fu in Ed.
  apply Su in I. apply (rep_node R) in I. destruct (ids_subtree _ _ I) as (s & S1 & Es). destruct (rep_cell R s S1) as (q' & Cs).
  rewrite Es, C in Cs. injection Cs as Ec. assert (rdata s = NFeature f) as Fs by (rewrite Ec in Ed; cbn [n_data] in Ed; auto).
  assert (get_feature m x = Some i) as X by (apply (rep_find R); apply named_subtree; exists s, f; auto). congruence.
Qed.

Definition leaf_in (t : tree) (i : nid) : Prop := exists s, subtree s t /\ rid s = i /\ is_feature (rdata s) = true /\ kids s = [] /\ i <> rid t.

Lemma leaf_kept h m t h' m' t' i : represents h m t -> represents h' m' t' -> rid t' = rid t -> thinned h h' m' ->
  In i (nodes m') -> leaf_in t i -> leaf_in t' i.
Proof.
  intros R R' Er Th I (s & S1 & Es & F & K & N). pose proof I as Ii. apply (rep_node R') in Ii. destruct (ids_subtree _ _ Ii) as (s' & S1' & Es').
  destruct (Th _ I) as (c & es & C & C' & E). destruct (rep_cell R s S1) as (q & Cs). rewrite Es, C in Cs. injection Cs as ->. rewrite K in E. cbn [map n_edges filter] in E.
  destruct (rep_cell R' s' S1') as (q' & Cs'). rewrite Es', C' in Cs'. injection Cs' as Ed _ Ee. cbn [n_data] in Ed.
  exists s'. split; [exact S1'|]. split; [exact Es'|]. split; [rewrite <- Ed; exact F|]. split; [|congruence].
  subst es. destruct (kids s'); [reflexivity|discriminate].
Qed.

(** A transaction that removes leaves. *)
Lemma remove_leaves : forall rs h m t,
  represents h m t -> Forall (fun r => exists i, ref_ok m r /\ resolve m r = Some i /\ leaf_in t i) rs -> NoDup (listed m rs) ->
  exists h' m' t', run ord (map (fun r => ORemoveFeature r false) rs) (h, m) = Some ((h', m'), None) /\ represents h' m' t' /\ rid t' = rid t /\
    same_rest m m' /\ (forall i, In i (nodes m') <-> In i (nodes m) /\ ~ In i (listed m rs)) /\ thinned h h' m' /\
    (forall i, ~ In i (nodes m) -> h_cells h' i = h_cells h i) /\ (forall i, In i (listed m rs) -> h_cells h' i = None).
Proof.
  induction rs as [|r rs IH]; intros h m t R F D.
  { exists h, m, t. split; [reflexivity|]. split; [exact R|]. split; [reflexivity|]. split; [repeat split|]. split; [cbn [listed flat_map]; cbn [In]; tauto|].
    split; [|split; [reflexivity|intros i []]]. intros i I. pose proof (represents_tree_shaped _ _ _ R) as TS. pose proof I as Ii. apply (rep_node R) in Ii.
    destruct (ids_subtree _ _ Ii) as (s & S1 & Es). destruct (rep_cell R s S1) as (q & C). rewrite Es in C. eexists _, _. split; [exact C|]. split; [exact C|].
    symmetry. apply filter_all. intros j Ij. apply mem_spec. destruct (ts_listed _ _ TS i _ j I C Ij) as (J & _). exact J. }
  inversion F as [|? ? (i & Ro & E & (s & S1 & Es & Fs & K & N)) Frs]; subst. cbn [listed flat_map] in D. rewrite E in D. cbn [app] in D. apply NoDup_cons_iff in D.
  destruct D as (Ni & D). destruct (remove_one h m t r s R E S1 Fs N K) as (h1 & m1 & t1 & X1 & R1 & Er1 & Sr1 & Nd1 & Th1 & Fr1 & G1).
  assert (forall j, In j (nodes m1) -> In j (nodes m)) as Su1 by (intros j J; apply Nd1 in J; tauto).
  assert (Forall (fun r => exists i, ref_ok m r /\ resolve m r = Some i /\ In i (nodes m1) /\ leaf_in t i) rs) as Frs'.
  { rewrite Forall_forall in *. intros x Ix. destruct (Frs x Ix) as (j & Oj & Ej & Lj). exists j. split; [exact Oj|]. split; [exact Ej|]. split; [|exact Lj].
    apply Nd1. split.
    - destruct Lj as (u & U & Eu & _). apply (rep_node R). rewrite <- Eu. eapply subtree_ids; [exact U|apply rid_in_ids].
    - intros ->. apply Ni. unfold listed. apply in_flat_map. exists x. rewrite Ej. split; [exact Ix|left; reflexivity]. }
  assert (listed m1 rs = listed m rs) as El.
  { clear - Frs' R R1 Th1 Su1. induction rs as [|x rs IH]; [reflexivity|]. inversion Frs' as [|? ? (j & Oj & Ej & Ij & Lj) Fr]; subst. unfold listed in *. cbn [flat_map].
    rewrite (IH Fr), Ej. destruct (resolve_kept h m t h1 m1 t1 x j R R1 Th1 Su1 Oj Ej Ij) as (_ & ->). reflexivity. }
  destruct (IH h1 m1 t1 R1) as (h2 & m2 & t2 & X2 & R2 & Er2 & Sr2 & Nd2 & Th2 & Fr2 & G2).
  - rewrite Forall_forall in *. intros x Ix. destruct (Frs' x Ix) as (j & Oj & Ej & Ij & Lj). exists j.
    destruct (resolve_kept h m t h1 m1 t1 x j R R1 Th1 Su1 Oj Ej Ij) as (Oj' & Ej'). split; [exact Oj'|]. split; [exact Ej'|].
    apply (leaf_kept h m t h1 m1 t1); auto.
  - rewrite El. exact D.
  - rewrite El in *. exists h2, m2, t2. split; [cbn [map run]; rewrite X1; cbn [bind]; exact X2|]. split; [exact R2|]. split; [congruence|]. split.
    { destruct Sr1 as (? & ? & ? & ? & ? & ?), Sr2 as (? & ? & ? & ? & ? & ?). repeat split; congruence. }
    assert (forall j, In j (nodes m2) -> In j (nodes m1)) as Su2 by (intros j J; apply Nd2 in J; tauto).
    unfold listed. cbn [flat_map]. rewrite E. cbn [app]. fold (listed m rs). split.
    { intros j. rewrite Nd2, Nd1. cbn [In]. assert (rid s = j <-> j = rid s) as Sy by (split; congruence). tauto. }
    split; [eapply thinned_trans; eauto|]. split.
    + intros j J. rewrite Fr2 by (intros Y; apply J; auto). apply Fr1. exact J.
    + intros j [<-|J].
      * rewrite Fr2 by (intros Y; apply Nd1 in Y; tauto). exact G1.
      * apply G2. exact J.
Qed.

Lemma filter_option_spec {A} (p : A -> option bool) l : (forall a, In a l -> exists b, p a = Some b) ->
  exists x y, filter_option p l = Some (x, y) /\ Permutation l (x ++ y) /\ (forall a, In a x -> p a = Some true) /\ (forall a, In a y -> p a = Some false).
Proof.
  induction l as [|a l IH]; intros F.
  { exists [], []. repeat split; try constructor; intros ? []. }
  destruct IH as (x & y & E & P & Px & Py); [intros b I; apply F; right; exact I|]. destruct (F a (or_introl eq_refl)) as (b & B).
  cbn [filter_option]. rewrite B. cbn [bind]. rewrite E. cbn [bind]. destruct b; eexists _, _; (split; [reflexivity|]).
  - split; [cbn [app]; constructor; exact P|]. split; [intros c [<-|I]; auto|exact Py].
  - split; [rewrite P; apply Permutation_middle|]. split; [exact Px|]. intros c [<-|I]; auto.
Qed.

Lemma listed_app m a b : listed m (a ++ b) = listed m a ++ listed m b.
Proof. apply flat_map_app. Qed.
Lemma listed_perm m a b : Permutation a b -> Permutation (listed m a) (listed m b).
Proof. apply permutation_flat_map. Qed.
Lemma in_listed m rs i : In i (listed m rs) <-> exists r, In r rs /\ resolve m r = Some i.
Proof.
  unfold listed. rewrite in_flat_map. split.
  - intros (r & I & X). exists r. split; [exact I|]. destruct (resolve m r); [destruct X as [->|[]]; reflexivity|destruct X].
  - intros (r & I & X). exists r. rewrite X. split; [exact I|left; reflexivity].
Qed.

Lemma some_leaf t : exists u, subtree u t /\ kids u = [].
Proof.
  induction t as [n d ts IH] using tree_ind'. destruct ts as [|k ts]; [exists (Node n d []); split; [constructor|reflexivity]|].
  inversion IH as [|? ? (u & U & K) _]; subst. exists u. split; [|exact K]. eapply sub_kid; [left; reflexivity|exact U].
Qed.

Lemma reaches_same h h' i j : reaches h i j -> (forall k, reaches h i k -> exists c c', h_cells h k = Some c /\ h_cells h' k = Some c' /\ n_parent c' = n_parent c) -> reaches h' i j.
Proof.
  induction 1 as [i c C|i c p r C P Rp IH]; intros Q.
  - destruct (Q i (reaches_here h i c C)) as (? & c' & _ & C' & _). eapply reaches_here. exact C'.
  - destruct (Q i (reaches_here h i c C)) as (c0 & c' & C0 & C' & E). assert (c0 = c) as -> by congruence.
    eapply (reaches_up h' i c' p); [exact C'|congruence|]. apply IH. intros k K. apply Q. eapply reaches_up; eauto.
Qed.

Lemma reaches_nodes h m t i j : represents h m t -> In i (nodes m) -> reaches h i j -> In j (nodes m).
Proof.
  intros R I X. pose proof (represents_tree_shaped _ _ _ R) as TS. induction X as [i c C|i c p r C P Rp IH]; [exact I|]. apply IH.
  destruct (m_root m) as [q|] eqn:Eq.
  - destruct (Nat.eq_dec q i) as [->|N].
    + exfalso. rewrite (rep_root _ _ _ R) in Eq. injection Eq as <-. rewrite (rep_top R) in C. injection C as <-. discriminate.
    + destruct (ts_parent _ _ TS i I) as (c1 & p1 & cp & C1 & P1 & I1 & _); [congruence|]. assert (c1 = c) as -> by congruence. assert (p1 = p) as -> by congruence. exact I1.
  - destruct (ts_root _ _ TS) as (? & ? & ? & X & _). congruence.
Qed.

Lemma remove_features_exact : forall n rs h m t fuel, length rs <= n -> n < fuel ->
  represents h m t -> Forall (ref_ok m) rs -> NoDup (listed m rs) -> (exists i, In i (nodes m) /\ ~ In i (listed m rs)) ->
  exists h' m' rest gone, remove_features ord part_order fuel (h, m) rs = Some ((h', m'), rest) /\
    Permutation rs (gone ++ rest) /\ Forall (vanishes h m rs) gone /\ Forall (fun r => ~ vanishes h m rs r) rest /\
    (exists t', represents h' m' t') /\ same_rest m m' /\
    (forall i, In i (nodes m') <-> In i (nodes m) /\ ~ all_listed h m rs i) /\ thinned h h' m' /\
    (forall i, ~ In i (nodes m) -> h_cells h' i = h_cells h i) /\
    (forall r i, In r rest -> resolve m r = Some i -> exists c, h_cells h' i = Some c /\ n_edges c <> []) /\
    (forall i, In i (nodes m) -> ~ In i (nodes m') -> h_cells h' i = None).
Proof.
  induction n as [n IH] using lt_wf_ind. intros rs h m t fuel Ln Lf R O D U.
  pose proof (represents_tree_shaped _ _ _ R) as TS.
  assert (thinned h h m) as Th0.
  { intros i I. pose proof I as Ii. apply (rep_node R) in Ii. destruct (ids_subtree _ _ Ii) as (s & S1 & Es).
    destruct (rep_cell R s S1) as (q & C). rewrite Es in C. eexists _, _. split; [exact C|]. split; [exact C|].
    symmetry. apply filter_all. intros j Ij. apply mem_spec. destruct (ts_listed _ _ TS i _ j I C Ij) as (J & _). exact J. }
  assert (forall i, In i (nodes m) -> all_listed h m rs i -> exists j c, In j (listed m rs) /\ h_cells h j = Some c /\ n_edges c = []) as Leaf.
  { intros i I A. apply (rep_node R) in I. destruct (ids_subtree _ _ I) as (s & S1 & Es). destruct (some_leaf s) as (u & Us & K).
    pose proof (subtree_trans _ _ _ Us S1) as Ut. destruct (rep_cell R u Ut) as (q & C). exists (rid u), (Cell (rdata u) q (map rid (kids u))). split; [|split; [exact C|cbn [n_edges]; rewrite K; reflexivity]].
    apply A; [apply (rep_node R); eapply subtree_ids; [exact Ut|apply rid_in_ids]|]. rewrite <- Es. eapply subtree_reaches; [apply (rep_holds _ _ _ R)|exact S1|].
    eapply subtree_ids; [exact Us|apply rid_in_ids]. }
  destruct rs as [|r0 rs0].
  { destruct fuel as [|k]; [lia|]. exists h, m, [], []. split; [reflexivity|]. split; [constructor|]. split; [constructor|]. split; [constructor|].
    split; [eauto|]. split; [repeat split|]. split.
    - intros i. split; [|tauto]. intros I. split; [exact I|]. intros A. destruct (Leaf i I A) as (j & c & [] & _).
    - split; [exact Th0|]. split; [reflexivity|]. split; [intros r i []|]. tauto. }
  set (rs := r0 :: rs0) in *. destruct fuel as [|k]; [lia|].
  assert (forall r i, In r rs -> resolve m r = Some i -> exists s f, subtree s t /\ rid s = i /\ rdata s = NFeature f) as Rs.
  { intros r i I E. rewrite Forall_forall in O. apply (rep_resolve R r i (O r I) E). }
  destruct (filter_option_spec (ref_is_leaf (h, m)) rs) as (yes & no & E & P & Y & No).
  { intros r I. unfold ref_is_leaf. cbn [fst snd]. destruct (resolve m r) as [i|] eqn:Er; [|eauto]. destruct (Rs r i I Er) as (s & f & S1 & Es & _).
    destruct (rep_cell R s S1) as (q & C). rewrite Es in C. unfold is_leaf. rewrite C. cbn [bind]. eauto. }
  assert (remove_features ord part_order (S k) (h, m) rs =
    match yes with [] => Some ((h, m), part_order no) | _ =>
      let* t := open_modify (h, m) in
      let* (_, w1, _) := commit_modify ord (Mtx (t_open t) (map (fun r => ORemoveFeature r false) (part_order yes))) (h, m) in
      remove_features ord part_order k w1 (part_order no) end) as ->.
  { unfold rs. cbn [remove_features]. unfold rs in E. rewrite E. reflexivity. }
  assert (forall r, In r yes -> exists i, ref_ok m r /\ resolve m r = Some i /\ leaf_in t i) as Ly.
  { intros r I. assert (In r rs) as Ir by (eapply Permutation_in; [apply Permutation_sym; exact P|apply in_or_app; auto]).
    pose proof (Y r I) as Yr. unfold ref_is_leaf in Yr. cbn [fst snd] in Yr. destruct (resolve m r) as [i|] eqn:Er; [|discriminate].
    exists i. rewrite Forall_forall in O. split; [apply O; exact Ir|]. split; [reflexivity|]. destruct (Rs r i Ir Er) as (s & f & S1 & Es & Fs).
    destruct (rep_cell R s S1) as (q & C). rewrite Es in C. unfold is_leaf in Yr. rewrite C in Yr. cbn [bind n_edges] in Yr.
    exists s. split; [exact S1|]. split; [exact Es|]. split; [rewrite Fs; reflexivity|]. assert (kids s = []) as K by (destruct (kids s); [reflexivity|discriminate]).
    split; [exact K|]. intros X. destruct U as (j & Ij & Nj). assert (s = t) as -> by (apply (subtree_unique t); auto; [apply (rep_ids _ _ _ R)|constructor|congruence]).
    apply (rep_node R) in Ij. destruct t as [nt dt ts]. cbn [kids] in K. subst ts. cbn [ids flat_map] in Ij. destruct Ij as [<-|[]]. cbn [rid] in Es. subst i.
    apply Nj. apply in_listed. eauto. }
  destruct yes as [|y0 yes0].
  { (* nothing is a leaf *)
    cbn [app] in P. pose proof (part_ok no) as Pn. assert (forall r, In r (part_order no) -> In r rs) as Inn.
    { intros r I. eapply Permutation_in; [apply Permutation_sym; exact P|]. eapply Permutation_in; [exact Pn|exact I]. }
    assert (forall j c, In j (listed m rs) -> h_cells h j = Some c -> n_edges c <> []) as NL.
    { intros j c J C. apply in_listed in J. destruct J as (r & Ir & Er). assert (In r no) as In0 by (eapply Permutation_in; [exact P|exact Ir]).
      specialize (No r In0). unfold ref_is_leaf in No. cbn [fst snd] in No. rewrite Er in No. unfold is_leaf in No. rewrite C in No. cbn [bind] in No.
      intros X. rewrite X in No. discriminate. }
    assert (forall i, In i (nodes m) -> ~ all_listed h m rs i) as NA.
    { intros i I A. destruct (Leaf i I A) as (j & c & J & C & X). apply (NL j c J C X). }
    exists h, m, (part_order no), []. split; [reflexivity|]. split; [cbn [app]; rewrite Pn; exact P|]. split; [constructor|]. split.
    { apply Forall_forall. intros r I (i & Er & A). destruct (Rs r i (Inn r I) Er) as (s & f & S1 & Es & _).
      apply (NA i); [|exact A]. apply (rep_node R). rewrite <- Es. eapply subtree_ids; [exact S1|apply rid_in_ids]. }
    split; [eauto|]. split; [repeat split|]. split; [intros i; split; [intros I; split; [exact I|apply NA; exact I]|tauto]|]. split; [exact Th0|]. split; [reflexivity|].
    split; [|tauto]. intros r i I Er. destruct (Rs r i (Inn r I) Er) as (s & f & S1 & Es & _). destruct (rep_cell R s S1) as (q & C). rewrite Es in C.
    eexists. split; [exact C|]. eapply NL; [|exact C]. apply in_listed. exists r. auto. }
  set (yes := y0 :: yes0) in *. pose proof (part_ok yes) as Py. pose proof (part_ok no) as Pn. set (ys := part_order yes) in *. set (ns := part_order no) in *.
  assert (Permutation rs (ys ++ ns)) as P' by (rewrite Py, Pn; exact P). clear P.
  assert (NoDup (listed m ys ++ listed m ns)) as D'.
  { rewrite <- listed_app. eapply Permutation_NoDup; [apply listed_perm; exact P'|exact D]. }
  apply nodup_app in D'. destruct D' as (Dy & Dn & Dd).
  assert (Forall (fun r => exists i, ref_ok m r /\ resolve m r = Some i /\ leaf_in t i) ys) as Fy.
  { apply Forall_forall. intros r I. apply Ly. eapply Permutation_in; [exact Py|exact I]. }
  destruct (remove_leaves ys h m t R Fy Dy) as (h1 & m1 & t1 & X1 & R1 & Er1 & Sr1 & Nd1 & Th1 & Fr1 & G1).
  unfold open_modify. cbn [fst snd]. rewrite (represents_consistent _ _ _ R). cbn [bind]. unfold commit_modify. cbn [t_open t_queue mtx_start]. rewrite X1. cbn [bind fst snd].
  rewrite (represents_consistent _ _ _ R1). cbn [bind].
  assert (forall j, In j (nodes m1) -> In j (nodes m)) as Su1 by (intros j J; apply Nd1 in J; tauto).
  assert (forall r, In r ns -> In r rs) as Inn by (intros r I; eapply Permutation_in; [apply Permutation_sym; exact P'|apply in_or_app; auto]).
  assert (forall r, In r ns -> ref_ok m1 r /\ resolve m1 r = resolve m r) as Kn.
  { intros r I. rewrite Forall_forall in O. destruct (resolve m r) as [i|] eqn:Er.
    - apply (resolve_kept h m t h1 m1 t1); auto. apply Nd1. destruct (Rs r i (Inn r I) Er) as (s & f & S1 & Es & _). split.
      + apply (rep_node R). rewrite <- Es. eapply subtree_ids; [exact S1|apply rid_in_ids].
      + intros X. apply (Dd i X). apply in_listed. eauto.
    - apply (resolve_none h m t h1 m1 t1); auto. }
  assert (listed m1 ns = listed m ns) as El.
  { unfold listed. apply flat_map_ext_in. intros r I. rewrite (proj2 (Kn r I)). reflexivity. }
  assert (forall i, In i (listed m rs) <-> In i (listed m ys) \/ In i (listed m ns)) as Lrs.
  { intros i. rewrite <- in_app_iff, <- listed_app. split; apply Permutation_in; [|apply Permutation_sym]; apply listed_perm; exact P'. }
  (* leaves have nothing below them *)
  assert (forall i j, In i (nodes m) -> In j (listed m ys) -> reaches h i j -> i = j) as Below.
  { intros i j I J X. apply in_listed in J. destruct J as (r & Ir & Er). rewrite Forall_forall in Fy. destruct (Fy r Ir) as (j' & _ & Ej & (s & S1 & Es & _ & K & _)).
    assert (j' = j) as -> by congruence. clear Ej. destruct (rep_cell R s S1) as (q & C). rewrite Es, K in C. cbn [map] in C. induction X as [i c Ci|i c p r' Ci Pi Xi IHx]; [reflexivity|]. exfalso.
    assert (In p (nodes m)) as Ip by (eapply reaches_nodes; [exact R|exact I|]; eapply reaches_up; [exact Ci|exact Pi|]; inversion Xi; subst; eapply reaches_here; eassumption).
    assert (p = r') as -> by (apply IHx; auto). destruct (ts_parent _ _ TS i I) as (c1 & p1 & cp & C1 & P1 & I1 & Cp & Oc).
    { intros X. rewrite (rep_root _ _ _ R) in X. injection X as <-. rewrite (rep_top R) in Ci. injection Ci as <-. discriminate. }
    assert (p1 = r') as -> by congruence. rewrite C in Cp. injection Cp as <-. discriminate. }
  assert (forall i j, In i (nodes m1) -> (reaches h1 i j <-> reaches h i j)) as Rch.
  { intros i j I. split; intros X.
    - apply (reaches_same h1 h i j X). intros l Xl. pose proof (reaches_nodes h1 m1 t1 i l R1 I Xl) as Il. destruct (Th1 l Il) as (c & es & C & C' & _). eauto 6.
    - apply (reaches_same h h1 i j X). intros l Xl. pose proof (reaches_nodes h m t i l R (Su1 i I) Xl) as Il.
      assert (In l (nodes m1)) as Il1. { apply Nd1. split; [exact Il|]. intros Y'. pose proof (Below i l (Su1 i I) Y' Xl) as ->. apply Nd1 in I. tauto. }
      destruct (Th1 l Il1) as (c & es & C & C' & _). eauto 6. }
  assert (forall i, In i (nodes m1) -> (all_listed h1 m1 ns i <-> all_listed h m rs i)) as Al.
  { intros i I. unfold all_listed. rewrite El. split; intros A j J X.
    - apply Lrs. destruct (in_dec Nat.eq_dec j (listed m ys)) as [Yj|Nj]; [auto|]. right. assert (In j (nodes m1)) as J1 by (apply Nd1; auto).
      apply A; [exact J1|]. apply Rch; auto.
    - pose proof J as J1. apply Nd1 in J1. destruct J1 as (J1 & J2). apply Rch in X; [|exact J]. specialize (A j J1 X). apply Lrs in A. tauto. }
  assert (forall i, In i (listed m ys) -> all_listed h m rs i) as Ay.
  { intros i I j J X. rewrite (Below j i J I X). apply Lrs. auto. }
  assert (length ys = length yes) as Lys by (apply Permutation_length; exact Py). unfold yes in Lys. cbn [length] in Lys.
  pose proof (Permutation_length P') as Lp. rewrite app_length in Lp.
  destruct (IH (length ns)) with (rs := ns) (h := h1) (m := m1) (t := t1) (fuel := k) as (h2 & m2 & rest & gone & X2 & Pr & Vg & Vr & R2 & Sr2 & Nd2 & Th2 & Fr2 & Ed2 & G2); [lia|lia|lia|exact R1| | | |].
  { apply Forall_forall. intros r I. apply Kn. exact I. }
  { rewrite El. exact Dn. }
  { destruct U as (i & I & Ni). exists i. rewrite El. rewrite Lrs in Ni. split; [apply Nd1; tauto|tauto]. }
  assert (forall r, In r ns -> (vanishes h1 m1 ns r <-> vanishes h m rs r)) as Va.
  { intros r I. unfold vanishes. rewrite (proj2 (Kn r I)). split; intros (i & Er & A); exists i; (split; [exact Er|]); apply Al; auto.
    all: destruct (Rs r i (Inn r I) Er) as (s & f & S1 & Es & _); apply Nd1; split; [apply (rep_node R); rewrite <- Es; eapply subtree_ids; [exact S1|apply rid_in_ids]|].
    all: intros Z; apply (Dd i Z); apply in_listed; eauto. }
  assert (forall r, In r gone -> In r ns) as Ig by (intros r I; eapply Permutation_in; [apply Permutation_sym; exact Pr|apply in_or_app; auto]).
  assert (forall r, In r rest -> In r ns) as Irs by (intros r I; eapply Permutation_in; [apply Permutation_sym; exact Pr|apply in_or_app; auto]).
  exists h2, m2, rest, (ys ++ gone). split; [exact X2|]. split; [rewrite P', Pr, app_assoc; reflexivity|]. split; [|split; [|split; [exact R2|split; [|split; [|split; [|split; [|split]]]]]]].
  - apply Forall_app. split; apply Forall_forall; intros r I.
    + rewrite Forall_forall in Fy. destruct (Fy r I) as (i & _ & Er & _). exists i. split; [exact Er|]. apply Ay. apply in_listed. eauto.
    + rewrite Forall_forall in Vg. apply Va; auto.
  - apply Forall_forall. intros r I X. rewrite Forall_forall in Vr. apply (Vr r I). apply Va; auto.
  - destruct Sr1 as (? & ? & ? & ? & ? & ?), Sr2 as (? & ? & ? & ? & ? & ?). repeat split; congruence.
  - intros i. rewrite Nd2. split.
    + intros (I & A). split; [auto|]. intros B. apply A. apply Al; auto.
    + intros (I & A). assert (In i (nodes m1)) as I1 by (apply Nd1; split; [exact I|]; intros Z; apply A; apply Ay; exact Z). split; [exact I1|]. intros B. apply A. apply Al; auto.
  - eapply thinned_trans; [exact Th1|exact Th2|]. intros j J. apply Nd2 in J. tauto.
  - intros i I. rewrite Fr2 by (intros Z; apply I; auto). apply Fr1. exact I.
  - intros r i I Er. apply (Ed2 r i I). rewrite (proj2 (Kn r (Irs r I))). exact Er.
  - intros i I N2. destruct (in_dec Nat.eq_dec i (nodes m1)) as [I1|N1]; [apply G2; auto|].
    rewrite Fr2 by exact N1. apply G1. destruct (in_dec Nat.eq_dec i (listed m ys)) as [Z|Z]; [exact Z|]. exfalso. apply N1. apply Nd1. auto.
Qed.
(** If every node is listed, the root is reached. *)
Lemma remove_everything : forall fuel rs h m t,
  represents h m t -> Forall (ref_ok m) rs -> NoDup (listed m rs) -> (forall i, In i (nodes m) -> In i (listed m rs)) ->
  remove_features ord part_order fuel (h, m) rs = None.
Proof.
  induction fuel as [|k IH]; intros rs h m t R O D A; [reflexivity|].
  pose proof (represents_tree_shaped _ _ _ R) as TS.
  assert (In (rid t) (listed m rs)) as It by (apply A; apply (rep_node R); apply rid_in_ids).
  assert (forall r i, In r rs -> resolve m r = Some i -> exists s f, subtree s t /\ rid s = i /\ rdata s = NFeature f) as Rs.
  { intros r i I E. rewrite Forall_forall in O. apply (rep_resolve R r i (O r I) E). }
  destruct (filter_option_spec (ref_is_leaf (h, m)) rs) as (yes & no & E & P & Y & No).
  { intros r I. unfold ref_is_leaf. cbn [fst snd]. destruct (resolve m r) as [i|] eqn:Er; [|eauto]. destruct (Rs r i I Er) as (s & f & S1 & Es & _).
    destruct (rep_cell R s S1) as (q & C). rewrite Es in C. unfold is_leaf. rewrite C. cbn [bind]. eauto. }
  destruct rs as [|r0 rs0]; [destruct It|]. cbn [remove_features]. rewrite E. cbn [bind]. set (rs := r0 :: rs0) in *.
  assert (forall r i c, In r rs -> resolve m r = Some i -> h_cells h i = Some c -> (n_edges c = [] <-> In r yes)) as Lf.
  { intros r i c I Er C. split.
    - intros X. eapply Permutation_in in I; [|exact P]. apply in_app_or in I. destruct I as [I|I]; [exact I|]. apply No in I. unfold ref_is_leaf in I. cbn [fst snd] in I.
      rewrite Er in I. unfold is_leaf in I. rewrite C in I. cbn [bind] in I. rewrite X in I. discriminate.
    - intros X. apply Y in X. unfold ref_is_leaf in X. cbn [fst snd] in X. rewrite Er in X. unfold is_leaf in X. rewrite C in X. cbn [bind] in X.
      destruct (n_edges c); [reflexivity|discriminate]. }
  assert (yes <> []) as Ny.
  { destruct (some_leaf t) as (u & U & K). assert (In (rid u) (listed m rs)) as I by (apply A; apply (rep_node R); eapply subtree_ids; [exact U|apply rid_in_ids]).
    apply in_listed in I. destruct I as (r & I & Er). destruct (rep_cell R u U) as (q & C). intros Z. rewrite K in C. pose proof (proj1 (Lf r _ _ I Er C) eq_refl) as X. rewrite Z in X. destruct X. }
  unfold open_modify. cbn [fst snd]. rewrite (represents_consistent _ _ _ R). cbn [bind].
  pose proof (part_ok yes) as Py. pose proof (part_ok no) as Pn. set (ys := part_order yes) in *. set (ns := part_order no) in *.
  destruct yes as [|y0 yes0]; [congruence|]. set (yes := y0 :: yes0) in *. unfold commit_modify. cbn [t_open t_queue mtx_start].
  assert (Permutation rs (ys ++ ns)) as P' by (rewrite Py, Pn; exact P).
  assert (NoDup (listed m ys ++ listed m ns)) as D'.
  { rewrite <- listed_app. eapply Permutation_NoDup; [apply listed_perm; exact P'|exact D]. }
  apply nodup_app in D'. destruct D' as (Dy & Dn & Dd).
  assert (forall r, In r ys -> In r rs) as Iy by (intros r I; eapply Permutation_in; [apply Permutation_sym; exact P'|apply in_or_app; auto]).
  destruct (kids t) as [|k0 ks] eqn:K.
  - (* only the root is left *)
    pose proof (Permutation_length Py) as L. destruct ys as [|y ys0]; [discriminate|]. assert (In y yes) as Iyy by (eapply Permutation_in; [exact Py|left; reflexivity]).
    pose proof (Y y Iyy) as Yy. unfold ref_is_leaf in Yy. cbn [fst snd] in Yy. destruct (resolve m y) as [i|] eqn:Er; [|discriminate].
    destruct (Rs y i (Iy y (or_introl eq_refl)) Er) as (s & f & S1 & Es & Fs). assert (s = t) as ->.
    { destruct t as [nt dt ts]. cbn [kids] in K. subst ts. inversion S1 as [|? ? ? ? I0]; subst; [reflexivity|destruct I0]. }
    subst i. cbn [map run]. rewrite (exec_remove_root ord ord_ok h m t y false R Er); [reflexivity|]. right. rewrite K. reflexivity.
  - assert (Forall (fun r => exists i, ref_ok m r /\ resolve m r = Some i /\ leaf_in t i) ys) as Fy.
    { apply Forall_forall. intros r I. assert (In r yes) as I' by (eapply Permutation_in; [exact Py|exact I]). pose proof (Y r I') as Yr. unfold ref_is_leaf in Yr. cbn [fst snd] in Yr.
      destruct (resolve m r) as [i|] eqn:Er; [|discriminate]. exists i. rewrite Forall_forall in O. split; [apply O; auto|]. split; [reflexivity|].
      destruct (Rs r i (Iy r I) Er) as (s & f & S1 & Es & Fs). destruct (rep_cell R s S1) as (q & C). rewrite Es in C.
      apply (Lf r i _ (Iy r I) Er C) in I'. cbn [n_edges] in I'. exists s. split; [exact S1|]. split; [exact Es|]. split; [rewrite Fs; reflexivity|].
      assert (kids s = []) as Ks by (destruct (kids s); [reflexivity|discriminate]). split; [exact Ks|]. intros X.
      assert (s = t) as -> by (apply (subtree_unique t); auto; [apply (rep_ids _ _ _ R)|constructor|congruence]). congruence. }
    destruct (remove_leaves ys h m t R Fy Dy) as (h1 & m1 & t1 & X1 & R1 & Er1 & Sr1 & Nd1 & Th1 & Fr1 & G1).
    rewrite X1. cbn [bind fst snd]. rewrite (represents_consistent _ _ _ R1). cbn [bind].
    assert (forall j, In j (nodes m1) -> In j (nodes m)) as Su1 by (intros j J; apply Nd1 in J; tauto).
    assert (forall r, In r ns -> In r rs) as Inn by (intros r I; eapply Permutation_in; [apply Permutation_sym; exact P'|apply in_or_app; auto]).
    assert (forall r, In r ns -> ref_ok m1 r /\ resolve m1 r = resolve m r) as Kn.
    { intros r I. rewrite Forall_forall in O. destruct (resolve m r) as [i|] eqn:Er.
      - apply (resolve_kept h m t h1 m1 t1); auto. apply Nd1. destruct (Rs r i (Inn r I) Er) as (s & f & S1 & Es & _). split.
        + apply (rep_node R). rewrite <- Es. eapply subtree_ids; [exact S1|apply rid_in_ids].
        + intros X. apply (Dd i X). apply in_listed. eauto.
      - apply (resolve_none h m t h1 m1 t1); auto. }
    assert (listed m1 ns = listed m ns) as El.
    { unfold listed. apply flat_map_ext_in. intros r I. rewrite (proj2 (Kn r I)). reflexivity. }
    apply (IH ns h1 m1 t1 R1).
    + apply Forall_forall. intros r I. apply Kn. exact I.
    + rewrite El. exact Dn.
    + intros i I. rewrite El. apply Nd1 in I. destruct I as (I & N). apply A in I. apply (Permutation_in i (listed_perm m _ _ P')) in I. rewrite listed_app in I.
      apply in_app_or in I. tauto.
Qed.
End Bulk.

Lemma bulk_exact ord part_order rs h m t fuel : is_order ord -> any_partition part_order -> length rs < fuel ->
  represents h m t -> Forall (ref_ok m) rs -> NoDup (listed m rs) -> (exists i, In i (nodes m) /\ ~ In i (listed m rs)) ->
  exists h' m' rest gone, remove_features ord part_order fuel (h, m) rs = Some ((h', m'), rest) /\
    Permutation rs (gone ++ rest) /\ Forall (vanishes h m rs) gone /\ Forall (fun r => ~ vanishes h m rs r) rest /\
    (exists t', represents h' m' t') /\ same_rest m m' /\
    (forall i, In i (nodes m') <-> In i (nodes m) /\ ~ all_listed h m rs i) /\ thinned h h' m' /\
    (forall i, ~ In i (nodes m) -> h_cells h' i = h_cells h i) /\
    (forall r i, In r rest -> resolve m r = Some i -> exists c, h_cells h' i = Some c /\ n_edges c <> []) /\
    (forall i, In i (nodes m) -> ~ In i (nodes m') -> h_cells h' i = None).
Proof. intros A B L. apply (remove_features_exact ord A part_order B (length rs)); auto. Qed.
Lemma bulk_everything ord part_order fuel rs h m t : is_order ord -> any_partition part_order ->
  represents h m t -> Forall (ref_ok m) rs -> NoDup (listed m rs) -> (forall i, In i (nodes m) -> In i (listed m rs)) ->
  remove_features ord part_order fuel (h, m) rs = None.
Proof. intros A B. apply (remove_everything ord A part_order B). Qed.
