From Coq Require Import List Arith Bool Ascii Permutation Sorted Lia.
From Verif Require Import Text FeatureTreeModel FeatureTreeSpec FeatureTreeProofs FeatureTransactionModel FeatureEditSpec FeatureEditProofs
  FeatureOpsProofs FeatureRemoveProofs FeatureHistoryProofs FeatureTransactionSpec FeatureTransactionFinal FeatureBulkSpec FeatureBulkProofs
  FeatureRecursiveModel FeatureRecursiveSpec.
Import ListNotations.

(** * Sets ordered by address *)
Section Sets.
Variable addr : nid -> nat.
Hypothesis addr_ok : distinct_addresses addr.
Notation sorted := (StronglySorted (fun a b => addr a < addr b)).

Lemma address_insert_in i j l : In j (address_insert addr i l) <-> j = i \/ In j l.
Proof.
  induction l as [|x l IH]; cbn [address_insert].
  - cbn [In]. intuition congruence.
  - destruct (Nat.ltb_spec (addr i) (addr x)); [cbn [In]; intuition congruence|].
    destruct (Nat.ltb_spec (addr x) (addr i)); [cbn [In]; rewrite IH; tauto|].
    assert (x = i) as -> by (apply addr_ok; lia). cbn [In]. intuition congruence.
Qed.
Lemma address_insert_sorted i l : sorted l -> sorted (address_insert addr i l).
Proof.
  induction 1 as [|x l S IH F]; cbn [address_insert]; [repeat constructor|].
  destruct (Nat.ltb_spec (addr i) (addr x)).
  - constructor; [constructor; assumption|]. constructor; [assumption|]. rewrite Forall_forall in *. intros y Y. specialize (F y Y). lia.
  - destruct (Nat.ltb_spec (addr x) (addr i)); [|constructor; assumption]. constructor; [exact IH|].
    rewrite Forall_forall in *. intros y Y. apply address_insert_in in Y. destruct Y as [->|Y]; [assumption|auto].
Qed.

Lemma other_features_spec m rs : sorted (other_features addr m rs) /\ forall i, In i (other_features addr m rs) <-> In i (listed m rs).
Proof.
  unfold other_features.
  enough (forall s, sorted s -> sorted (fold_left (fun s r => match resolve m r with Some i => address_insert addr i s | None => s end) rs s) /\
    forall i, In i (fold_left (fun s r => match resolve m r with Some i => address_insert addr i s | None => s end) rs s) <-> In i s \/ In i (listed m rs)) as H.
  { destruct (H [] (SSorted_nil _)) as (A & B). split; [exact A|]. intros i. rewrite B. cbn [In]. tauto. }
  induction rs as [|r rs IH]; intros s S; cbn [fold_left].
  - split; [exact S|]. intros i. cbn. tauto.
  - unfold listed in *. cbn [flat_map]. destruct (resolve m r) as [j|].
    + destruct (IH _ (address_insert_sorted j s S)) as (A & B). split; [exact A|]. intros i. rewrite B, address_insert_in. cbn [app In]. intuition congruence.
    + apply IH. exact S.
Qed.

Lemma intersection_sound : forall xs ys x, In x (intersection addr xs ys) -> In x xs /\ In x ys.
Proof.
  induction xs as [|a xs IHx]; intros ys x; [destruct ys; intros []|].
  induction ys as [|b ys IHy]; [intros []|]. cbn [intersection].
  destruct (Nat.ltb_spec (addr a) (addr b)); [intros I; destruct (IHx _ _ I); cbn [In] in *; tauto|].
  destruct (Nat.ltb_spec (addr b) (addr a)).
  - intros I. destruct (IHy I). cbn [In] in *. tauto.
  - assert (a = b) as -> by (apply addr_ok; lia). intros [<-|I]; [cbn [In]; tauto|]. destruct (IHx _ _ I). cbn [In]. tauto.
Qed.
Lemma intersection_complete : forall xs ys x, sorted xs -> sorted ys -> In x xs -> In x ys -> In x (intersection addr xs ys).
Proof.
  induction xs as [|a xs IHx]; intros ys x Sx Sy Ix Iy; [destruct Ix|].
  induction ys as [|b ys IHy]; [destruct Iy|]. cbn [intersection].
  inversion Sx as [|? ? Sx' Fx]; inversion Sy as [|? ? Sy' Fy]; subst. rewrite Forall_forall in Fx, Fy.
  destruct (Nat.ltb_spec (addr a) (addr b)).
  - apply IHx; auto. destruct Ix as [->|Ix]; [|exact Ix]. exfalso. destruct Iy as [->|Iy]; [lia|]. specialize (Fy _ Iy). lia.
  - destruct (Nat.ltb_spec (addr b) (addr a)).
    + apply IHy; auto. destruct Iy as [->|Iy]; [|exact Iy]. exfalso. destruct Ix as [->|Ix]; [lia|]. specialize (Fx _ Ix). lia.
    + assert (a = b) as -> by (apply addr_ok; lia). destruct Ix as [->|Ix]; [left; reflexivity|]. right. apply IHx; auto.
      destruct Iy as [->|Iy]; [|exact Iy]. specialize (Fx _ Ix). lia.
Qed.
End Sets.

(** * Reachability *)
Lemma reaches_ids h m t s i : represents h m t -> subtree s t -> In i (nodes m) -> reaches h i (rid s) -> In i (ids s).
Proof.
  intros R S1 I X. pose proof (represents_tree_shaped _ _ _ R) as TS. remember (rid s) as j eqn:Ej.
  induction X as [i c C|i c p r C P X IH]; [rewrite Ej; apply rid_in_ids|].
  destruct (ts_parent _ _ TS i I) as (c1 & p1 & cp & C1 & P1 & I1 & Cp & Oc).
  { intros Z. rewrite (rep_root _ _ _ R) in Z. injection Z as <-. rewrite (rep_top R) in C. injection C as <-. discriminate. }
  assert (p1 = p) as -> by congruence. specialize (IH I1 Ej). destruct (ids_subtree _ _ IH) as (u & U & Eu).
  destruct (rep_cell R u (subtree_trans _ _ _ U S1)) as (q & Cu). rewrite Eu in Cu. rewrite Cp in Cu. injection Cu as ->. cbn [n_edges] in Oc.
  assert (In i (map rid (kids u))) as Ik by (apply (count_occ_In Nat.eq_dec); lia). apply in_map_iff in Ik. destruct Ik as (k & <- & K).
  eapply subtree_ids; [exact U|]. destruct u as [n d ts]. cbn [kids] in K. cbn [ids]. right. apply in_flat_map. exists k. split; [exact K|apply rid_in_ids].
Qed.
Lemma ids_reaches h m t s i : represents h m t -> subtree s t -> In i (ids s) -> reaches h i (rid s).
Proof. intros R S1 I. eapply subtree_reaches; [apply (rep_holds _ _ _ R)|exact S1|exact I]. Qed.

Lemma reaches_trans h i j k : reaches h i j -> reaches h j k -> reaches h i k.
Proof. induction 1 as [i c C|i c p r C P X IH]; intros Y; [exact Y|]. eapply reaches_up; eauto. Qed.
Lemma reaches_target h i j : reaches h i j -> exists c, h_cells h j = Some c.
Proof. induction 1; eauto. Qed.

(** What is left has the nodes above it left as well. *)
Lemma reaches_kept h m t h' m' t' i j : represents h m t -> represents h' m' t' -> thinned h h' m' -> In i (nodes m') ->
  (reaches h' i j <-> reaches h i j).
Proof.
  intros R R' Th I. split; intros X.
  - apply (reaches_same h' h i j X). intros l Xl. pose proof (reaches_nodes h' m' t' i l R' I Xl) as Il.
    destruct (Th l Il) as (c & es & C & C' & _). eauto 6.
  - pose proof (represents_tree_shaped _ _ _ R') as TS. induction X as [i c C|i c p r C P X IH].
    + destruct (Th i I) as (c0 & es & C0 & C' & _). eapply reaches_here. exact C'.
    + destruct (Th i I) as (c0 & es & C0 & C' & _). assert (c0 = c) as -> by congruence.
      destruct (ts_parent _ _ TS i I) as (c1 & p1 & cp & C1 & P1 & I1 & Cp & Oc).
      { intros Z. rewrite (rep_root _ _ _ R') in Z. injection Z as <-. rewrite (rep_top R') in C'. injection C' as _ Z _. congruence. }
      rewrite C' in C1. injection C1 as <-. cbn [n_parent] in P1. assert (p1 = p) as -> by congruence.
      eapply reaches_up; [exact C'|exact P|]. apply IH. exact I1.
Qed.

Lemma reaches_antisym h m t i j : represents h m t -> In i (nodes m) -> reaches h i j -> reaches h j i -> i = j.
Proof.
  intros R I X Y. pose proof (reaches_nodes _ _ _ _ _ R I X) as J. apply (rep_node R) in I. apply (rep_node R) in J.
  destruct (ids_subtree _ _ I) as (s & S1 & <-). destruct (ids_subtree _ _ J) as (u & U & <-).
  apply (reaches_ids h m t u _ R U) in X; [|apply (rep_node R); exact I]. apply (reaches_ids h m t s _ R S1) in Y; [|apply (rep_node R); exact J].
  destruct (ids_subtree _ _ X) as (s' & S' & Es). assert (s' = s) as -> by (apply (subtree_unique t); auto; [apply (rep_ids _ _ _ R)|eapply subtree_trans; eauto]).
  destruct (ids_subtree _ _ Y) as (u' & U' & Eu). assert (u' = u) as -> by (apply (subtree_unique t); auto; [apply (rep_ids _ _ _ R)|eapply subtree_trans; eauto]).
  f_equal.
  destruct (Nat.eq_dec (rid s) (rid u)) as [E|N]; [apply (subtree_unique t); auto; apply (rep_ids _ _ _ R)|exfalso].
  pose proof (subtree_nodup u t U (rep_ids _ _ _ R)) as Du. 
  destruct u as [n d ts]. cbn [ids rid] in *. apply NoDup_cons_iff in Du. destruct Du as (Nn & Du).
  inversion S' as [|? ? ? k K Sk]; subst; [apply N; reflexivity|]. apply Nn. apply in_flat_map. exists k. split; [exact K|]. eapply subtree_ids; [exact Sk|exact Y].
Qed.

(** * One transaction *)
Section Run.
Variable ord : list nid -> list nid.
Hypothesis ord_ok : is_order ord.

Lemma thinned_refl h m t : represents h m t -> thinned h h m.
Proof.
  intros R i I. pose proof (represents_tree_shaped _ _ _ R) as TS. pose proof I as Ii. apply (rep_node R) in Ii. destruct (ids_subtree _ _ Ii) as (s & S1 & Es).
  destruct (rep_cell R s S1) as (q & C). rewrite Es in C. eexists _, _. split; [exact C|]. split; [exact C|].
  symmetry. apply filter_all. intros j Ij. apply mem_spec. destruct (ts_listed _ _ TS i _ j I C Ij) as (J & _). exact J.
Qed.

Lemma remove_branch h m t r i :
  represents h m t -> ref_ok m r -> resolve m r = Some i -> i <> rid t ->
  exists h' m' t', exec ord (ORemoveFeature r true) (h, m) = Some ((h', m'), None) /\ represents h' m' t' /\ rid t' = rid t /\
    same_rest m m' /\ (forall j, In j (nodes m') <-> In j (nodes m) /\ ~ reaches h j i) /\ thinned h h' m' /\
    (forall j, ~ In j (nodes m) -> h_cells h' j = h_cells h j) /\ (forall j, In j (nodes m) -> reaches h j i -> h_cells h' j = None).
Proof.
  intros R Ro E N. destruct (rep_resolve R r i Ro E) as (s & f & S1 & <- & Fs).
  destruct (remove_exact ord ord_ok true h m t r s R E S1) as (h' & m' & X & R' & Sr & Nd & G & Fr); [rewrite Fs; reflexivity|exact N|left; reflexivity|].
  assert (forall j, In j (nodes m) -> (In j (ids s) <-> reaches h j (rid s))) as Ir.
  { intros j J. split; [apply (ids_reaches h m t s j R S1)|apply (reaches_ids h m t s j R S1 J)]. }
  assert (forall j, In j (nodes m') <-> In j (nodes m) /\ ~ reaches h j (rid s)) as Nd'.
  { intros j. rewrite Nd. split; intros (A & B); (split; [exact A|]); intros Y; apply B; apply Ir; auto. }
  exists h', m', (prune (rid s) t). split; [exact X|]. split; [exact R'|]. split; [apply rid_prune|]. split; [exact Sr|]. split; [exact Nd'|].
  split; [|split; [intros j J; apply Fr; intros Y; apply J; apply (rep_node R); exact Y|intros j J Y; apply G; apply Ir; auto]].
  intros j J. pose proof J as Jj. apply (rep_node R') in Jj. destruct (holds_live h' None _ j (rep_holds _ _ _ R') Jj) as (c' & C' & Ie).
  apply entries_prune in Ie. destruct Ie as (c & Ie & ->). pose proof (rep_holds _ _ _ R j c Ie) as C. eexists _, _. split; [exact C|]. split; [exact C'|].
  apply filter_ext_in. intros k Ik. apply eq_true_iff_eq. rewrite negb_true_iff, Nat.eqb_neq, mem_spec, Nd'.
  pose proof (represents_tree_shaped _ _ _ R) as TS. apply Nd' in J. destruct (ts_listed _ _ TS j c k (proj1 J) C Ik) as (Jn & ck & Ck & Pk). split.
  - intros Nk. split; [exact Jn|]. intros Y. inversion Y as [? c0 C0|? c0 p0 r0 C0 P0 Y0]; subst; [congruence|]. apply (proj2 J).
    assert (p0 = j) as -> by congruence. exact Y0.
  - intros (_ & Y) ->. apply Y. eapply reaches_here. exact Ck.
Qed.

Lemma remove_apart : forall rs h m t,
  represents h m t -> Forall (fun r => exists i, ref_ok m r /\ resolve m r = Some i /\ i <> rid t) rs -> NoDup (listed m rs) -> apart h m rs ->
  exists h' m' t', run ord (map (fun r => ORemoveFeature r true) rs) (h, m) = Some ((h', m'), None) /\ represents h' m' t' /\ rid t' = rid t /\
    same_rest m m' /\ (forall i, In i (nodes m') <-> In i (nodes m) /\ ~ covered h m rs i) /\ thinned h h' m' /\
    (forall i, ~ In i (nodes m) -> h_cells h' i = h_cells h i) /\ (forall i, In i (nodes m) -> covered h m rs i -> h_cells h' i = None).
Proof.
  induction rs as [|r rs IH]; intros h m t R F D A.
  { exists h, m, t. split; [reflexivity|]. split; [exact R|]. split; [reflexivity|]. split; [repeat split|].
    assert (forall i, ~ covered h m [] i) as Nc by (intros i (j & [] & _)).
    split; [intros i; split; [intros I; split; [exact I|apply Nc]|tauto]|]. split; [eapply thinned_refl; exact R|]. split; [reflexivity|]. intros i _ Y. destruct (Nc i Y). }
  inversion F as [|? ? (i & Ro & E & N) Frs]; subst. cbn [listed flat_map] in D. rewrite E in D. cbn [app] in D. apply NoDup_cons_iff in D. destruct D as (Ni & D).
  fold (listed m rs) in Ni, D.
  assert (listed m (r :: rs) = i :: listed m rs) as Li by (unfold listed; cbn [flat_map]; rewrite E; reflexivity).
  destruct (remove_branch h m t r i R Ro E N) as (h1 & m1 & t1 & X1 & R1 & Er1 & Sr1 & Nd1 & Th1 & Fr1 & G1).
  assert (forall j, In j (nodes m1) -> In j (nodes m)) as Su1 by (intros j J; apply Nd1 in J; tauto).
  assert (forall x, In x rs -> exists j, ref_ok m x /\ resolve m x = Some j /\ j <> rid t /\ In j (nodes m1)) as Frs'.
  { rewrite Forall_forall in Frs. intros x Ix. destruct (Frs x Ix) as (j & Oj & Ej & Nj). exists j. split; [exact Oj|]. split; [exact Ej|]. split; [exact Nj|].
    apply Nd1. split.
    - destruct (rep_resolve R x j Oj Ej) as (s & f & S1 & <- & _). apply (rep_node R). eapply subtree_ids; [exact S1|apply rid_in_ids].
    - intros Y. assert (j = i) as ->. { apply A; auto; rewrite Li; [right; apply in_listed; eauto|left; reflexivity]. } apply Ni. apply in_listed. eauto. }
  assert (listed m1 rs = listed m rs) as El.
  { unfold listed. apply flat_map_ext_in. intros x Ix. destruct (Frs' x Ix) as (j & Oj & Ej & _ & Ij).
    destruct (resolve_kept h m t h1 m1 t1 x j R R1 Th1 Su1 Oj Ej Ij) as (_ & ->). rewrite Ej. reflexivity. }
  assert (forall k, In k (nodes m1) -> (covered h1 m1 rs k <-> covered h m rs k)) as Cv.
  { intros k K. unfold covered. rewrite El. split; intros (j & J & X); exists j; (split; [exact J|]); apply (reaches_kept h m t h1 m1 t1); auto. }
  assert (forall k, covered h m (r :: rs) k <-> reaches h k i \/ covered h m rs k) as Cc.
  { intros k. unfold covered. rewrite Li. split.
    - intros (j & [<-|J] & X); [auto|right; eauto].
    - intros [X|(j & J & X)]; [exists i|exists j]; split; auto; [left|right]; auto. }
  destruct (IH h1 m1 t1 R1) as (h2 & m2 & t2 & X2 & R2 & Er2 & Sr2 & Nd2 & Th2 & Fr2 & G2).
  - apply Forall_forall. intros x Ix. destruct (Frs' x Ix) as (j & Oj & Ej & Nj & Ij). exists j.
    destruct (resolve_kept h m t h1 m1 t1 x j R R1 Th1 Su1 Oj Ej Ij) as (Oj' & Ej'). split; [exact Oj'|]. split; [exact Ej'|]. congruence.
  - rewrite El. exact D.
  - intros a b Ia Ib X. rewrite El in Ia, Ib. assert (In a (nodes m1)) as Na.
    { apply in_listed in Ia. destruct Ia as (x & Ix & Ex). destruct (Frs' x Ix) as (j & _ & Ej & _ & Ij). congruence. }
    apply (reaches_kept h m t h1 m1 t1) in X; auto. apply A; auto; rewrite Li; right; assumption.
  - exists h2, m2, t2. split; [cbn [map run]; rewrite X1; cbn [bind]; exact X2|]. split; [exact R2|]. split; [congruence|]. split.
    { destruct Sr1 as (? & ? & ? & ? & ? & ?), Sr2 as (? & ? & ? & ? & ? & ?). repeat split; congruence. }
    assert (forall j, In j (nodes m2) -> In j (nodes m1)) as Su2 by (intros j J; apply Nd2 in J; tauto). split.
    { intros j. rewrite Nd2, Nd1, Cc. split.
      - intros ((J & Y) & Z). split; [exact J|]. intros [W|W]; [auto|]. apply Z, Cv; [apply Nd1; auto|exact W].
      - intros (J & Z). split; [tauto|]. intros W. apply Z. right. apply Cv; [apply Nd1; tauto|exact W]. }
    split; [eapply thinned_trans; eauto|]. split.
    + intros j J. rewrite Fr2 by (intros Y; apply J; auto). apply Fr1. exact J.
    + intros j J W. apply Cc in W. destruct (in_dec Nat.eq_dec j (nodes m1)) as [J1|J1].
      * apply G2; [exact J1|]. apply Cv; [exact J1|]. destruct W as [W|W]; [apply Nd1 in J1; tauto|exact W].
      * rewrite Fr2 by exact J1. assert (~ (In j (nodes m) /\ ~ reaches h j i)) as Z by (intros Z; apply J1, Nd1; exact Z).
        apply G1; [exact J|]. destruct W as [W|(l & L & W)]; [exact W|].
        destruct (rep_node R j) as (Ij & _). specialize (Ij J). apply in_listed in L. destruct L as (x & Ix & Ex).
        destruct (Frs' x Ix) as (l' & Ol & El' & _ & _). destruct (rep_resolve R x l' Ol El') as (s & f & S1 & Es & _).
        destruct (rep_resolve R r i Ro E) as (u & g & U & Eu & _). subst i.
        destruct (in_dec Nat.eq_dec j (ids u)) as [Y|Y]; [apply (ids_reaches h m t u j R U Y)|].
        exfalso. apply Z. split; [exact J|]. intros Q. apply Y. apply (reaches_ids h m t u j R U J Q).
Qed.
End Run.
