From Coq Require Import List Arith Bool Ascii Permutation Sorted Lia.
From Verif Require Import Text FeatureTreeModel FeatureTreeSpec FeatureTreeProofs FeatureTransactionModel FeatureEditSpec FeatureEditProofs
  FeatureOpsProofs FeatureRemoveProofs FeatureHistoryProofs FeatureTransactionSpec FeatureTransactionFinal FeatureBulkSpec FeatureBulkProofs
  FeatureRecursiveModel FeatureRecursiveSpec FeatureRecursiveProofs.
Import ListNotations.

Section Final.
Variable ord : list nid -> list nid.
Hypothesis ord_ok : is_order ord.
Variable part_order : list nref -> list nref.
Hypothesis part_ok : any_partition part_order.
Variable addr : nid -> nat.
Hypothesis addr_ok : distinct_addresses addr.

Lemma tops_any ts : flat_map (tops any_node) ts = ts.
Proof. induction ts as [|t ts IH]; [reflexivity|]. cbn [flat_map]. rewrite IH. destruct t. reflexivity. Qed.

Lemma deletable_known h m t rs r i c : represents h m t -> ref_ok m r -> resolve m r = Some i -> h_cells h i = Some c ->
  exists b, deletable ord addr true (h, m) (other_features addr m rs) r = Some b /\
    (b = false -> exists k, In k (n_edges c) /\ In k (listed m rs)) /\
    (b = true -> by_address ord addr -> forall k, In k (n_edges c) -> ~ In k (listed m rs)).
Proof.
  intros R Ro E C. destruct (rep_resolve R r i Ro E) as (s & f & S1 & <- & Fs). destruct (rep_cell R s S1) as (q & Cs). rewrite C in Cs. injection Cs as ->.
  cbn [n_edges]. unfold deletable, ref_is_leaf. cbn [fst snd]. rewrite E. unfold is_leaf. rewrite C. cbn [bind n_edges].
  destruct (kids s) as [|k0 ks] eqn:K.
  { exists true. cbn [map]. split; [reflexivity|]. split; [discriminate|]. intros _ _ k []. }
  cbn [map bind]. unfold can_be_deleted. cbn [fst snd]. rewrite E.
  destruct (holds_sub h None t s (rep_holds _ _ _ R) S1) as (p & Hs). pose proof (subtree_nodup s t S1 (rep_ids _ _ _ R)) as Ds.
  destruct s as [n d ts]. cbn [kids rid] in *. subst ts.
  rewrite (get_children_tree ord any_node h p n d _ (rep_ok _ _ _ R) Hs Ds), tops_any. cbn [bind].
  destruct (other_features_spec addr addr_ok m rs) as (So & Io). set (cs := map rid (k0 :: ks)) in *.
  change (rid k0 :: map rid ks) with cs.
  assert (NoDup cs) as Dc.
  { unfold cs. cbn [ids] in Ds. apply NoDup_cons_iff in Ds. destruct Ds as (_ & Ds). clear - Ds. induction (k0 :: ks) as [|x l IH]; [constructor|].
    cbn [flat_map] in Ds. apply nodup_app in Ds. destruct Ds as (_ & D2 & D3). cbn [map]. constructor; [|apply IH; exact D2].
    intros X. apply in_map_iff in X. destruct X as (y & Ey & Y). apply (D3 (rid x)); [apply rid_in_ids|]. apply in_flat_map. exists y. split; [exact Y|]. rewrite <- Ey. apply rid_in_ids. }
  destruct (intersection addr (ord cs) (other_features addr m rs)) as [|x l] eqn:Ei.
  - exists true. split; [reflexivity|]. split; [discriminate|]. intros _ By k Kc Kl.
    assert (In k (intersection addr (ord cs) (other_features addr m rs))) as X.
    { apply intersection_complete; auto; [|apply Io; exact Kl]. eapply Permutation_in; [apply Permutation_sym; apply ord_ok|exact Kc]. }
    rewrite Ei in X. exact X.
  - exists false. split; [reflexivity|]. split; [|discriminate]. intros _. exists x.
    destruct (intersection_sound addr addr_ok (ord cs) (other_features addr m rs) x) as (A & B); [rewrite Ei; left; reflexivity|].
    split; [eapply Permutation_in; [apply ord_ok|exact A]|apply Io; exact B].
Qed.

Lemma deletable_unknown w others r : resolve (snd w) r = None -> deletable ord addr true w others r = Some false.
Proof. intros E. unfold deletable, ref_is_leaf, can_be_deleted. rewrite E. reflexivity. Qed.

(** The first step down from a node above. *)
Lemma reaches_last h m t i j : represents h m t -> In i (nodes m) -> reaches h i j -> i <> j ->
  exists k c, h_cells h j = Some c /\ In k (n_edges c) /\ reaches h i k /\ reaches h k j.
Proof.
  intros R I X. pose proof (represents_tree_shaped _ _ _ R) as TS. induction X as [i c C|i c p r C P X IH]; intros N; [congruence|].
  destruct (ts_parent _ _ TS i I) as (c1 & p1 & cp & C1 & P1 & I1 & Cp & Oc).
  { intros Z. rewrite (rep_root _ _ _ R) in Z. injection Z as <-. rewrite (rep_top R) in C. injection C as <-. discriminate. }
  assert (p1 = p) as -> by congruence. destruct (Nat.eq_dec p r) as [->|Np].
  - exists i, cp. split; [exact Cp|]. split; [apply (count_occ_In Nat.eq_dec); lia|]. split; [eapply reaches_here; exact C|]. eapply reaches_up; eauto.
  - destruct (IH I1 Np) as (k & c' & Cj & Kc & Xk & Xj). exists k, c'. repeat split; auto. eapply reaches_up; eauto.
Qed.

Definition outcome (fuel : nat) (rs : list nref) (h : heap) (m : fmodel) (t : tree) : Prop :=
  (In (rid t) (listed m rs) -> remove_listed ord part_order addr true fuel (h, m) rs = None) /\
  (~ In (rid t) (listed m rs) -> length rs < fuel ->
   exists h' m' rest, remove_listed ord part_order addr true fuel (h, m) rs = Some ((h', m'), rest) /\ cleared h m rs h' m' rest).

Lemma unknown_perm m a b : Permutation a b -> Permutation (unknown m a) (unknown m b).
Proof. intros P. unfold unknown. induction P; cbn [filter]; repeat match goal with |- context [match resolve m ?r with _ => _ end] => destruct (resolve m r) end; try (constructor; auto; fail); auto. etransitivity; eauto. Qed.
Lemma unknown_all m rs : (forall r, In r rs -> resolve m r = None) -> unknown m rs = rs.
Proof. intros A. unfold unknown. apply filter_all. intros r I. rewrite (A r I). reflexivity. Qed.
Lemma unknown_none m rs : (forall r, In r rs -> resolve m r <> None) -> unknown m rs = [].
Proof.
  intros A. unfold unknown. induction rs as [|r rs IH]; [reflexivity|]. cbn [filter]. destruct (resolve m r) eqn:E; [|destruct (A r (or_introl eq_refl) E)].
  apply IH. intros x I. apply A. right. exact I.
Qed.

Lemma remove_listed_exact : forall n rs h m t fuel, length rs <= n ->
  represents h m t -> Forall (ref_ok m) rs -> NoDup (listed m rs) -> gapless h m rs -> (apart h m rs \/ by_address ord addr) ->
  outcome fuel rs h m t.
Proof.
  induction n as [n IH] using lt_wf_ind. intros rs h m t fuel Ln R O D Ga Mode. pose proof (represents_tree_shaped _ _ _ R) as TS.
  destruct fuel as [|k]; [split; [reflexivity|lia]|].
  destruct rs as [|r0 rs0].
  { split; [intros []|]. intros _ _. exists h, m, []. split; [reflexivity|]. assert (forall i, ~ covered h m [] i) as Nc by (intros i (j & [] & _)).
    split; [constructor|]. split; [eauto|]. split; [repeat split|]. split; [intros i; split; [intros I; split; [exact I|apply Nc]|tauto]|].
    split; [eapply thinned_refl; exact R|]. split; [reflexivity|tauto]. }
  set (rs := r0 :: rs0) in *. rewrite Forall_forall in O.
  assert (forall r i, In r rs -> resolve m r = Some i -> In i (nodes m) /\ exists c, h_cells h i = Some c) as Rs.
  { intros r i I E. destruct (rep_resolve R r i (O r I) E) as (s & f & S1 & <- & _). split; [apply (rep_node R); eapply subtree_ids; [exact S1|apply rid_in_ids]|].
    destruct (rep_cell R s S1) as (q & C). eauto. }
  assert (forall i, In i (listed m rs) -> In i (nodes m) /\ exists c, h_cells h i = Some c) as Ls.
  { intros i I. apply in_listed in I. destruct I as (r & Ir & Er). eauto. }
  set (others := other_features addr m rs) in *.
  destruct (filter_option_spec (deletable ord addr true (h, m) others) rs) as (yes & no & E & P & Y & No).
  { intros r I. destruct (resolve m r) as [i|] eqn:Er; [|exists false; apply deletable_unknown; exact Er].
    destruct (Rs r i I Er) as (_ & c & C). destruct (deletable_known h m t rs r i c R (O r I) Er C) as (b & B & _). exists b. exact B. }
  assert (remove_listed ord part_order addr true (S k) (h, m) rs =
    match yes with [] => Some ((h, m), part_order no) | _ =>
      let* t := open_modify (h, m) in
      let* (_, w1, _) := commit_modify ord (Mtx (t_open t) (map (fun r => ORemoveFeature r true) (part_order yes))) (h, m) in
      remove_listed ord part_order addr true k w1 (part_order no) end) as Eq.
  { unfold rs. cbn [remove_listed snd]. fold rs. fold others. rewrite E. reflexivity. }
  assert (forall r, In r yes -> In r rs) as Iyr by (intros r I; eapply Permutation_in; [apply Permutation_sym; exact P|apply in_or_app; auto]).
  assert (forall r, In r no -> In r rs) as Inr by (intros r I; eapply Permutation_in; [apply Permutation_sym; exact P|apply in_or_app; auto]).
  (* what is deleted has no listed feature below it *)
  assert (forall r i j, In r yes -> resolve m r = Some j -> In i (listed m rs) -> reaches h i j -> i = j) as Ya.
  { intros r i j I Er Ii X. destruct Mode as [Ap|By]; [apply Ap; auto; apply in_listed; eauto|].
    destruct (Nat.eq_dec i j) as [|N]; [assumption|exfalso]. destruct (reaches_last h m t i j R (proj1 (Ls i Ii)) X N) as (l & c & C & Lc & Xl & Lj).
    destruct (deletable_known h m t rs r j c R (O r (Iyr r I)) Er C) as (b & B & _ & Bt). fold others in B. rewrite (Y r I) in B. injection B as <-.
    apply (Bt eq_refl By l Lc). apply (Ga i j l); auto. apply in_listed. eauto. }
  assert (forall r, In r yes -> exists i, resolve m r = Some i) as Yk.
  { intros r I. destruct (resolve m r) as [i|] eqn:Er; [eauto|]. pose proof (Y r I) as Yr. rewrite deletable_unknown in Yr by exact Er. discriminate. }
  destruct yes as [|y0 yes0].
  { (* nothing can be deleted: nothing is there *)
    cbn [app] in P. assert (forall s, subtree s t -> ~ In (rid s) (listed m rs)) as NL.
    { induction s as [a d ts IHs] using tree_ind'. intros S1 I. pose proof I as I0. apply in_listed in I0. destruct I0 as (r & Ir & Er).
      destruct (rep_cell R _ S1) as (q & C). destruct (deletable_known h m t rs r _ _ R (O r Ir) Er C) as (b & B & Bf & _).
      assert (In r no) as In0 by (eapply Permutation_in; [exact P|exact Ir]). fold others in B. rewrite (No r In0) in B. injection B as <-.
      destruct (Bf eq_refl) as (l & Lk & Ll). cbn [n_edges kids] in Lk. apply in_map_iff in Lk. destruct Lk as (u & <- & U).
      rewrite Forall_forall in IHs. apply (IHs u U); [|exact Ll]. eapply subtree_trans; [|exact S1]. eapply sub_kid; [exact U|constructor]. }
    assert (forall i, ~ In i (listed m rs)) as Nl.
    { intros i I. destruct (Ls i I) as (Ii & _). apply (rep_node R) in Ii. destruct (ids_subtree _ _ Ii) as (s & S1 & <-). exact (NL s S1 I). }
    split; [intros X; destruct (Nl _ X)|]. intros _ _. exists h, m, (part_order no). split; [exact Eq|].
    assert (forall i, ~ covered h m rs i) as Nc by (intros i (j & J & _); exact (Nl j J)). split.
    { rewrite (part_ok no), <- P. rewrite unknown_all; [reflexivity|]. intros r I. destruct (resolve m r) as [i|] eqn:Er; [|reflexivity].
      exfalso. apply (Nl i). apply in_listed. eauto. }
    split; [eauto|]. split; [repeat split|]. split; [intros i; split; [intros I; split; [exact I|apply Nc]|tauto]|].
    split; [eapply thinned_refl; exact R|]. split; [reflexivity|tauto]. }
  set (yes := y0 :: yes0) in *. pose proof (part_ok yes) as Py. pose proof (part_ok no) as Pn. set (ys := part_order yes) in *. set (ns := part_order no) in *.
  assert (Eq' : remove_listed ord part_order addr true (S k) (h, m) rs =
      let* t := open_modify (h, m) in
      let* (_, w1, _) := commit_modify ord (Mtx (t_open t) (map (fun r => ORemoveFeature r true) ys)) (h, m) in
      remove_listed ord part_order addr true k w1 ns) by exact Eq. clear Eq.
  assert (Permutation rs (ys ++ ns)) as P' by (rewrite Py, Pn; exact P).
  assert (NoDup (listed m ys ++ listed m ns)) as D'.
  { rewrite <- listed_app. eapply Permutation_NoDup; [apply listed_perm; exact P'|exact D]. }
  apply nodup_app in D'. destruct D' as (Dy & Dn & Dd).
  assert (forall r, In r ys -> In r yes) as Iyy by (intros r I; eapply Permutation_in; [exact Py|exact I]).
  assert (forall r, In r ns -> In r no) as Inn by (intros r I; eapply Permutation_in; [exact Pn|exact I]).
  assert (forall i, In i (listed m rs) <-> In i (listed m ys) \/ In i (listed m ns)) as Lrs.
  { intros i. rewrite <- in_app_iff, <- listed_app. split; apply Permutation_in; [|apply Permutation_sym]; apply listed_perm; exact P'. }
  unfold open_modify in Eq'. cbn [fst snd] in Eq'. rewrite (represents_consistent _ _ _ R) in Eq'. cbn [bind] in Eq'.
  unfold commit_modify in Eq'. cbn [t_open t_queue mtx_start] in Eq'.
  destruct (in_dec Nat.eq_dec (rid t) (listed m ys)) as [Rt|Rt].
  { (* the root itself *)
    split; [|intros Nr; exfalso; apply Nr; apply Lrs; auto]. intros _. rewrite Eq'. apply in_listed in Rt. destruct Rt as (rr & Irr & Err).
    destruct ys as [|y ys'] eqn:Eys; [destruct Irr|]. destruct (Yk y (Iyy y (or_introl eq_refl))) as (i & Ei).
    assert (In i (listed m rs)) as Ii by (apply Lrs; left; apply in_listed; exists y; split; [left; reflexivity|exact Ei]).
    assert (i = rid t) as ->.
    { apply (Ya rr i (rid t)); auto. apply (ts_reaches _ _ TS); [apply Ls; exact Ii|apply (rep_root _ _ _ R)]. }
    cbn [map run]. rewrite (exec_remove_root ord ord_ok h m t y true R Ei (or_introl eq_refl)). reflexivity. }
  destruct (remove_apart ord ord_ok ys h m t R) as (h1 & m1 & t1 & X1 & R1 & Er1 & Sr1 & Nd1 & Th1 & Fr1 & G1).
  { apply Forall_forall. intros r I. destruct (Yk r (Iyy r I)) as (i & Ei). exists i. split; [apply O; apply Iyr; auto|]. split; [exact Ei|].
    intros ->. apply Rt. apply in_listed. eauto. }
  { exact Dy. }
  { intros i j Ii Ij X. pose proof Ij as Ij0. apply in_listed in Ij0. destruct Ij0 as (r & Ir & Er). apply (Ya r i j); auto. apply Lrs. auto. }
  rewrite X1 in Eq'. cbn [bind fst snd] in Eq'. rewrite (represents_consistent _ _ _ R1) in Eq'. cbn [bind] in Eq'.
  assert (forall j, In j (nodes m1) -> In j (nodes m)) as Su1 by (intros j J; apply Nd1 in J; tauto).
  assert (forall i, In i (listed m ns) -> In i (nodes m1)) as Nk.
  { intros i I. apply Nd1. split; [apply Ls; apply Lrs; auto|]. intros (j & J & X). pose proof J as J0. apply in_listed in J0. destruct J0 as (r & Ir & Er).
    assert (i = j) as -> by (apply (Ya r i j); auto; apply Lrs; auto). apply (Dd j J I). }
  assert (forall r, In r ns -> ref_ok m1 r /\ resolve m1 r = resolve m r) as Kn.
  { intros r I. destruct (resolve m r) as [i|] eqn:Er.
    - apply (resolve_kept h m t h1 m1 t1); auto. apply Nk. apply in_listed. eauto.
    - apply (resolve_none h m t h1 m1 t1); auto. }
  assert (listed m1 ns = listed m ns) as El.
  { unfold listed. apply flat_map_ext_in. intros r I. rewrite (proj2 (Kn r I)). reflexivity. }
  assert (forall i j, In i (nodes m1) -> (reaches h1 i j <-> reaches h i j)) as Rch by (intros i j I; apply (reaches_kept h m t h1 m1 t1); auto).
  assert (length ys = length yes) as Lys by (apply Permutation_length; exact Py). unfold yes in Lys. cbn [length] in Lys.
  pose proof (Permutation_length P') as Lp. rewrite app_length in Lp.
  destruct (IH (length ns)) with (rs := ns) (h := h1) (m := m1) (t := t1) (fuel := k) as (Und & Def); [lia|lia|exact R1| | | | |].
  { apply Forall_forall. intros r I. apply Kn. exact I. }
  { rewrite El. exact Dn. }
  { intros i j l Ii Ij Xl Xj. rewrite El in *. pose proof (Nk i Ii) as Ii1. pose proof (reaches_nodes _ _ _ _ _ R1 Ii1 Xl) as Il1.
    apply Rch in Xl; auto. apply Rch in Xj; auto. assert (In l (listed m rs)) as Ll by (apply (Ga i j l); auto; apply Lrs; auto).
    apply Lrs in Ll. destruct Ll as [Ll|Ll]; [|exact Ll]. exfalso. apply Nd1 in Il1. apply (proj2 Il1). exists l. split; [exact Ll|].
    destruct (Ls l) as (_ & c & C); [apply Lrs; auto|]. eapply reaches_here. exact C. }
  { destruct Mode as [Ap|By]; [left|right; exact By]. intros i j Ii Ij X. rewrite El in *. apply Rch in X; [|auto]. apply Ap; auto; apply Lrs; auto. }
  split.
  { intros Rt'. rewrite Eq'. apply Und. rewrite El, Er1. apply Lrs in Rt'. tauto. }
  intros Nr Lf. destruct Def as (h2 & m2 & rest & X2 & Pr & R2 & Sr2 & Nd2 & Th2 & Fr2 & G2); [rewrite El, Er1; intros X; apply Nr; apply Lrs; auto|lia|].
  assert (forall i, In i (nodes m1) -> (covered h1 m1 ns i <-> covered h m ns i)) as Cv.
  { intros i I. unfold covered. rewrite El. split; intros (j & J & X); exists j; (split; [exact J|]); apply Rch; auto. }
  assert (forall i, covered h m rs i <-> covered h m ys i \/ covered h m ns i) as Cc.
  { intros i. unfold covered. split.
    - intros (j & J & X). apply Lrs in J. destruct J as [J|J]; [left|right]; eauto.
    - intros [(j & J & X)|(j & J & X)]; exists j; (split; [apply Lrs; auto|exact X]). }
  exists h2, m2, rest. split; [rewrite Eq'; exact X2|]. split; [|split; [exact R2|split; [|split; [|split; [|split]]]]].
  - rewrite Pr, (unknown_perm m _ _ P'). unfold unknown at 2. rewrite filter_app. fold (unknown m ys). fold (unknown m ns).
    rewrite (unknown_none m ys).
    + cbn [app]. unfold unknown. erewrite filter_ext_in; [reflexivity|]. intros r I. cbv beta. rewrite (proj2 (Kn r I)). reflexivity.
    + intros r I. destruct (Yk r (Iyy r I)) as (i & ->). discriminate.
  - destruct Sr1 as (? & ? & ? & ? & ? & ?), Sr2 as (? & ? & ? & ? & ? & ?). repeat split; congruence.
  - intros i. rewrite Nd2, Cc. split.
    + intros (I & A). pose proof I as I0. apply Nd1 in I0. split; [tauto|]. intros [B|B]; [tauto|]. apply A. apply Cv; auto.
    + intros (I & A). assert (In i (nodes m1)) as I1 by (apply Nd1; split; [exact I|tauto]). split; [exact I1|]. intros B. apply A. right. apply Cv; auto.
  - eapply thinned_trans; [exact Th1|exact Th2|]. intros j J. apply Nd2 in J. tauto.
  - intros i I. rewrite Fr2 by (intros Z; apply I; auto). apply Fr1. exact I.
  - intros i I N2. destruct (in_dec Nat.eq_dec i (nodes m1)) as [I1|N1]; [apply G2; auto|].
    rewrite Fr2 by exact N1. apply G1; [exact I|].
    assert (~ ~ covered h m ys i) as NN by (intros Z; apply N1; apply Nd1; auto).
    assert (forall l, (forall j, In j l -> In j (listed m ys)) -> (exists j, In j l /\ reaches h i j) \/ ~ (exists j, In j l /\ reaches h i j)) as Dec.
    { induction l as [|j l IHl]; intros Sub; [right; intros (j & [] & _)|].
      destruct IHl as [(x & Ix & Xx)|Nl]; [intros x Ix; apply Sub; right; exact Ix|left; exists x; split; [right; exact Ix|exact Xx]|].
      assert (In j (nodes m)) as Jn by (apply Ls; apply Lrs; left; apply Sub; left; reflexivity). apply (rep_node R) in Jn. destruct (ids_subtree _ _ Jn) as (s & S1 & <-).
      destruct (in_dec Nat.eq_dec i (ids s)) as [W|W].
      - left. exists (rid s). split; [left; reflexivity|]. apply (ids_reaches h m t s i R S1 W).
      - right. intros (x & [<-|Ix] & Xx); [apply W; apply (reaches_ids h m t s i R S1 I Xx)|apply Nl; eauto]. }
    destruct (Dec (listed m ys) (fun j J => J)) as [W|W]; [exact W|exfalso; apply NN; intros V; apply W; exact V].
Qed.
End Final.

Lemma filter_option_ext {A} (p q : A -> option bool) l : (forall a, p a = q a) -> filter_option p l = filter_option q l.
Proof. intros E. induction l as [|a l IH]; [reflexivity|]. cbn [filter_option]. rewrite E, IH. reflexivity. Qed.

(** Without recursion this is the function of C35. *)
Lemma remove_listed_leaves ord part_order addr fuel : forall w rs,
  remove_listed ord part_order addr false fuel w rs = remove_features ord part_order fuel w rs.
Proof.
  induction fuel as [|k IH]; intros w rs; [reflexivity|]. cbn [remove_listed remove_features]. destruct rs as [|r rs]; [reflexivity|].
  rewrite (filter_option_ext _ (ref_is_leaf w)).
  - destruct (filter_option (ref_is_leaf w) (r :: rs)) as [(yes & no)|]; [|reflexivity]. cbn [bind]. destruct yes; [reflexivity|].
    destruct (open_modify w); [|reflexivity]. cbn [bind]. destruct (commit_modify _ _ _) as [((? & ?) & ?)|]; [|reflexivity]. cbn [bind]. apply IH.
  - intros a. unfold deletable. destruct (ref_is_leaf w a) as [[|]|]; reflexivity.
Qed.

Lemma recursive_apart ord part_order addr rs h m t fuel : is_order ord -> any_partition part_order -> distinct_addresses addr -> length rs < fuel ->
  represents h m t -> Forall (ref_ok m) rs -> NoDup (listed m rs) -> apart h m rs -> ~ In (rid t) (listed m rs) ->
  exists h' m' rest, remove_listed ord part_order addr true fuel (h, m) rs = Some ((h', m'), rest) /\ cleared h m rs h' m' rest.
Proof.
  intros Oo Po Ao L R O D A N. destruct (remove_listed_exact ord Oo part_order Po addr Ao (length rs) rs h m t fuel (le_n _) R O D) as (_ & X); auto.
  intros i j l Ii Ij Xl Xj. assert (i = j) as <- by (apply A; auto; eapply reaches_trans; eauto).
  assert (l = i) as ->; [|exact Ii]. symmetry. apply (reaches_antisym h m t i l R); auto. apply in_listed in Ii. destruct Ii as (r & Ir & Er).
  rewrite Forall_forall in O. destruct (rep_resolve R r i (O r Ir) Er) as (s & f & S1 & <- & _). apply (rep_node R). eapply subtree_ids; [exact S1|apply rid_in_ids].
Qed.
Lemma recursive_nested ord part_order addr rs h m t fuel : is_order ord -> any_partition part_order -> distinct_addresses addr -> by_address ord addr ->
  length rs < fuel -> represents h m t -> Forall (ref_ok m) rs -> NoDup (listed m rs) -> gapless h m rs -> ~ In (rid t) (listed m rs) ->
  exists h' m' rest, remove_listed ord part_order addr true fuel (h, m) rs = Some ((h', m'), rest) /\ cleared h m rs h' m' rest.
Proof.
  intros Oo Po Ao By L R O D A N. destruct (remove_listed_exact ord Oo part_order Po addr Ao (length rs) rs h m t fuel (le_n _) R O D A) as (_ & X); auto.
Qed.
Lemma recursive_root ord part_order addr rs h m t fuel : is_order ord -> any_partition part_order -> distinct_addresses addr -> by_address ord addr ->
  represents h m t -> Forall (ref_ok m) rs -> NoDup (listed m rs) -> gapless h m rs -> In (rid t) (listed m rs) ->
  remove_listed ord part_order addr true fuel (h, m) rs = None.
Proof.
  intros Oo Po Ao By R O D A N. destruct (remove_listed_exact ord Oo part_order Po addr Ao (length rs) rs h m t fuel (le_n _) R O D A) as (X & _); auto.
Qed.
