(** The functions that edit a model in one call. *)
From Coq Require Import List Arith Bool Ascii Permutation Lia.
From Verif Require Import Text TextProofs ConstraintModel SourceRangeModel FeatureTreeModel FeatureTreeSpec FeatureTreeProofs FeatureTransactionModel FeatureEditSpec FeatureEditProofs FeatureOpsProofs
  FeatureRemoveProofs FeatureHistoryProofs FeatureTransactionSpec FeatureTransactionFinal EditCallModel EditCallSpec.
Import ListNotations.

Section Order.
Variable ord : list nid -> list nid.
Hypothesis ord_ok : is_order ord.

Lemma call_runs os w h m t e : represents (fst w) (snd w) t -> run ord os w = Some ((h, m), e) -> (e = None -> exists t', represents h m t') -> edit_call ord os w = Some (h, m).
Proof.
  intros R E C. unfold edit_call, open_modify. rewrite (represents_consistent _ _ _ R). cbn [bind]. rewrite enqueued. cbn [bind]. unfold commit_modify. cbn [t_open t_queue]. rewrite E. cbn [bind].
  destruct e as [c|]; [reflexivity|]. destruct (C eq_refl) as (t' & R'). cbn [fst snd]. rewrite (represents_consistent _ _ _ R'). reflexivity.
Qed.
Lemma call_one o h m t h' m' t' : represents h m t -> exec ord o (h, m) = Some ((h', m'), None) -> represents h' m' t' -> edit_call ord [o] (h, m) = Some (h', m').
Proof. intros R E R'. apply (call_runs [o] (h, m) h' m' t None R); [cbn [run]; rewrite E; reflexivity|eauto]. Qed.
Lemma call_failed o h m t c : represents h m t -> exec ord o (h, m) = Some ((h, m), Some c) -> edit_call ord [o] (h, m) = Some (h, m).
Proof. intros R E. apply (call_runs [o] (h, m) h m t (Some c) R); [cbn [run]; rewrite E; reflexivity|discriminate]. Qed.
Lemma call_undefined o h m t : represents h m t -> exec ord o (h, m) = None -> edit_call ord [o] (h, m) = None.
Proof.
  intros R E. unfold edit_call, open_modify. cbn [fst snd]. rewrite (represents_consistent _ _ _ R). cbn [bind]. rewrite enqueued. cbn [bind]. unfold commit_modify. cbn [t_open t_queue run]. rewrite E. reflexivity.
Qed.

(** ** Adding *)
Lemma add_features_runs l : forall h m t, represents h m t -> plantable m l ->
  exists before h' m' e t', fresh_start m l before /\ run ord (map (fun x => OAddFeature (fst x) (snd x)) l) (h, m) = Some ((h', m'), e) /\
    represents h' m' t' /\ planted t before t' /\ same_rest m m' /\ m_relationships m' = m_relationships m /\
    map fst (m_features m') = map fst (m_features m) ++ map (fun x => f_name (fst x)) before.
Proof.
  induction l as [|[f p] l IH]; intros h m t R P.
  - exists [], h, m, None, t. split; [exists []; repeat split; [constructor|intros x []|discriminate]|]. split; [reflexivity|]. split; [exact R|]. split; [constructor|]. repeat split. cbn [map]. rewrite app_nil_r. reflexivity.
  - destruct (P f p (or_introl eq_refl)) as [K Q]. destruct (get_feature m (f_name f)) as [i|] eqn:G.
    + exists [], h, m, (Some ALREADY_PRESENT), t. split.
      { exists ((f, p) :: l). repeat split; [constructor|intros x []|]. intros y r E. injection E as <- <-. left. cbn [fst]. congruence. }
      split; [cbn [map run fst snd]; rewrite (exec_add_feature_present ord h m f p i G); reflexivity|]. split; [exact R|]. split; [constructor|]. repeat split. cbn [map]. rewrite app_nil_r. reflexivity.
    + assert (exists s, subtree s t /\ is_feature (rdata s) = true /\ rid s = match p with Some q => q | None => rid t end /\ (p = Some (rid s) \/ p = None /\ s = t)) as (s & Ss & Fs & Es & Ps).
      { destruct p as [q|].
        - destruct (rep_resolve R (ByPtr q) q (Q q eq_refl) eq_refl) as (s & g & Ss & <- & Dg). exists s. rewrite Dg. repeat split; auto.
        - destruct (rep_top_data R) as (g & Dg & _). exists t. rewrite Dg. repeat split; auto. constructor. }
      destruct (add_feature_exact ord h m t f p s R K G Ss Fs Ps) as (h1 & m1 & E1 & R1 & F1 & Rt1 & Rl1 & Sr1 & _).
      assert (Ge : forall s', get_feature m1 s' = match get_feature m s' with Some i => Some i | None => if text_eqb (f_name f) s' then Some (h_next h) else None end).
      { intros s'. unfold get_feature. rewrite F1. clear. induction (m_features m) as [|[k i] fs IHf]; cbn [app find_name]; [destruct (text_eqb (f_name f) s'); reflexivity|]. destruct (text_eqb k s'); [reflexivity|exact IHf]. }
      destruct (IH h1 m1 _ R1) as (before & h' & m' & e & t' & (after & El & Nd & Fr & Nx) & E2 & R' & Pl & Sr & Rl & Fn).
      { intros g q I. destruct (P g q (or_intror I)) as [Kg Qg]. split; [exact Kg|]. intros x X. rewrite F1, map_app. apply in_app_iff. left. exact (Qg x X). }
      exists ((f, p) :: before), h', m', e, t'. split; [|split; [|split; [exact R'|]]].
      * exists after. split; [rewrite El; reflexivity|]. split; [|split].
        -- cbn [map fst]. constructor; [|exact Nd]. intros I. apply in_map_iff in I. destruct I as (x & Ex & I). specialize (Fr x I). rewrite Ge, Ex, G in Fr.
           rewrite (proj2 (text_eqb_eq _ _) eq_refl) in Fr. discriminate.
        -- intros x [<-|I]; [exact G|]. specialize (Fr x I). rewrite Ge in Fr. destruct (get_feature m (f_name (fst x))); [discriminate|reflexivity].
        -- intros y r Ea. destruct (Nx y r Ea) as [N|N]; [|right; right; exact N]. rewrite Ge in N. destruct (get_feature m (f_name (fst y))) eqn:Gy; [left; discriminate|].
           destruct (text_eqb (f_name f) (f_name (fst y))) eqn:Ey; [|contradiction]. right. left. apply text_eqb_eq. exact Ey.
      * cbn [map run fst snd]. rewrite E1. exact E2.
      * split; [|split; [|split]].
        -- apply (planted_one t (h_next h)); [exact (rep_fresh R)|]. rewrite <- Es. exact Pl.
        -- destruct Sr1 as (a1 & a2 & a3 & a4 & a5 & a6). destruct Sr as (b1 & b2 & b3 & b4 & b5 & b6). repeat split; congruence.
        -- congruence.
        -- rewrite Fn, F1, map_app, <- app_assoc. reflexivity.
Qed.
Lemma add_features_exact h m t l : represents h m t -> plantable m l ->
  exists before h' m' t', fresh_start m l before /\ call_add_features ord l (h, m) = Some (h', m') /\ represents h' m' t' /\ planted t before t' /\ same_rest m m' /\
    m_relationships m' = m_relationships m /\ map fst (m_features m') = map fst (m_features m) ++ map (fun x => f_name (fst x)) before.
Proof.
  intros R P. destruct (add_features_runs l h m t R P) as (before & h' & m' & e & t' & F & E & R' & X). exists before, h', m', t'. split; [exact F|]. split; [|tauto].
  apply (call_runs _ (h, m) h' m' t e R E). eauto.
Qed.
Lemma fresh_start_unique m l a b : fresh_start m l a -> fresh_start m l b -> a = b.
Proof.
  assert (A : forall a b x y, fresh_start m l a -> fresh_start m l b -> l = a ++ x -> l = b ++ y -> length a <= length b -> a = b).
  { clear a b. intros a b x y (x' & Ea & Na & Fa & Xa) (y' & Eb & Nb & Fb & Xb) _ _ L. rewrite Ea in Eb.
    assert (exists z, b = a ++ z /\ x' = z ++ y') as (z & Z & Zx).
    { clear -Eb L. revert b Eb L. induction a as [|c a IH]; intros b Eb L; [exists b; auto|]. destruct b as [|d b]; [cbn in L; lia|]. cbn [app] in Eb. injection Eb as <- Eb. destruct (IH b Eb) as (z & -> & ->); [cbn in L; lia|]. exists z. auto. }
    destruct z as [|c z]; [rewrite app_nil_r in Z; auto|]. exfalso. destruct (Xa c (z ++ y') Zx) as [N|N].
    - apply N. apply Fb. rewrite Z. apply in_app_iff. right. left. reflexivity.
    - rewrite Z, map_app in Nb. apply NoDup_remove_2 in Nb. apply Nb. apply in_app_iff. left. exact N. }
  intros Fa Fb. pose proof Fa as (x & Ea & _). pose proof Fb as (y & Eb & _). destruct (Nat.le_ge_cases (length a) (length b)) as [L|L].
  - exact (A a b x y Fa Fb Ea Eb L).
  - symmetry. exact (A b a y x Fb Fa Eb Ea L).
Qed.
Lemma add_feature_call h m t f p : represents h m t -> f_kind f <> FRoot -> (forall q, p = Some q -> In q (map snd (m_features m))) ->
  (forall i, get_feature m (f_name f) = Some i -> call_add_feature ord f p (h, m) = Some (h, m)) /\
  (get_feature m (f_name f) = None -> exists h' m' i, call_add_feature ord f p (h, m) = Some (h', m') /\ ~ In i (ids t) /\
     represents h' m' (edit (match p with Some q => q | None => rid t end) (add_kid (Node i (NFeature f) [])) t) /\ same_rest m m' /\ m_relationships m' = m_relationships m /\
     m_features m' = m_features m ++ [(f_name f, i)]).
Proof.
  intros R K Q. split.
  - intros i G. exact (call_failed _ _ _ _ _ R (exec_add_feature_present ord h m f p i G)).
  - intros G. assert (exists s, subtree s t /\ is_feature (rdata s) = true /\ rid s = match p with Some q => q | None => rid t end /\ (p = Some (rid s) \/ p = None /\ s = t)) as (s & Ss & Fs & Es & Ps).
    { destruct p as [q|].
      - destruct (rep_resolve R (ByPtr q) q (Q q eq_refl) eq_refl) as (s & g & Ss & <- & Dg). exists s. rewrite Dg. repeat split; auto.
      - destruct (rep_top_data R) as (g & Dg & _). exists t. rewrite Dg. repeat split; auto. constructor. }
    destruct (add_feature_exact ord h m t f p s R K G Ss Fs Ps) as (h1 & m1 & E1 & R1 & F1 & Rt1 & Rl1 & Sr1 & _). exists h1, m1, (h_next h).
    split; [exact (call_one _ _ _ _ _ _ _ R E1 R1)|]. split; [exact (rep_fresh R)|]. rewrite <- Es. auto.
Qed.

(** ** Removing *)
Lemma remove_feature_call h m t r b : represents h m t -> ref_ok m r ->
  (resolve m r = None -> call_remove_feature ord r b (h, m) = Some (h, m)) /\
  (forall s, subtree s t -> resolve m r = Some (rid s) ->
     (b = false -> near (kids s) <> [] -> call_remove_feature ord r b (h, m) = Some (h, m)) /\
     (b = true \/ near (kids s) = [] -> rid s <> rid t -> exists h' m', call_remove_feature ord r b (h, m) = Some (h', m') /\ represents h' m' (prune (rid s) t) /\ same_rest m m' /\
        forall i, In i (nodes m') <-> In i (nodes m) /\ ~ In i (ids s)) /\
     (b = true \/ near (kids s) = [] -> rid s = rid t -> call_remove_feature ord r b (h, m) = None)).
Proof.
  intros R O. split.
  - intros N. exact (call_failed _ _ _ _ _ R (exec_remove_missing ord h m r b N)).
  - intros s Ss Es. split; [|split].
    + intros -> N. exact (call_failed _ _ _ _ _ R (exec_remove_inner ord ord_ok h m t r s R Es Ss N)).
    + intros C N. destruct (rep_resolve R r (rid s) O Es) as (u & g & Su & Eu & Dg). assert (u = s) as -> by (eapply subtree_unique; [exact (rep_ids _ _ _ R)|exact Su|exact Ss|exact Eu]).
      destruct (remove_exact ord ord_ok b h m t r s R Es Ss) as (h' & m' & E & R' & Sr & Nd & _); [rewrite Dg; reflexivity|exact N|exact C|].
      exists h', m'. split; [exact (call_one _ _ _ _ _ _ _ R E R')|auto].
    + intros C N. rewrite N in Es. apply (call_undefined _ _ _ _ R). apply (exec_remove_root ord ord_ok h m t r b R Es). destruct C as [C|C]; [auto|right].
      destruct t as [n d ts]. cbn [rid] in N. pose proof (subtree_top s n d ts (rep_ids _ _ _ R) Ss N) as ->. exact C.
Qed.

(** ** Groups *)
Lemma group_calls h m t k r s : represents h m t -> resolve m r = Some (rid s) -> subtree s t -> is_feature (rdata s) = true -> own_groups (kids s) = [] ->
  exists h1 m1 i us, call_add_relationship ord r k (h, m) = Some (h1, m1) /\ ~ In i (ids t) /\ Permutation us (kids s) /\
    represents h1 m1 (edit (rid s) (with_kids [Node i (NRelationship k) us]) t) /\ m_features m1 = m_features m /\ same_rest m m1 /\
    exists h2 us2, call_remove_relationship ord r (h1, m1) = Some (h2, m) /\ Permutation us2 (kids s) /\ represents h2 m (edit (rid s) (with_kids us2) t).
Proof.
  intros R E S1 F O. destruct (group_ungroup ord ord_ok h m t k r s R E S1 F O) as (h1 & m1 & us & E1 & P1 & R1 & F1 & Sr1 & h2 & m2 & us2 & E2 & P2 & R2 & ->).
  exists h1, m1, (h_next h), us. split; [exact (call_one _ _ _ _ _ _ _ R E1 R1)|]. split; [exact (rep_fresh R)|]. split; [exact P1|]. split; [exact R1|]. split; [exact F1|]. split; [exact Sr1|].
  exists h2, us2. split; [exact (call_one _ _ _ _ _ _ _ R1 E2 R2)|auto].
Qed.
Lemma group_unknown h m t k r : represents h m t -> resolve m r = None -> call_add_relationship ord r k (h, m) = None.
Proof.
  intros R E. apply (call_undefined _ _ _ _ R). cbn [exec]. unfold exec_add_relationship. destruct (store_relationship h m k) as [[i h1] m1] eqn:St.
  assert (resolve m1 r = resolve m r) as ->; [|rewrite E; reflexivity].
  unfold store_relationship in St. destruct (h_alloc h _) in St. injection St as _ _ <-. destruct r; reflexivity.
Qed.

(** ** The commit *)
Lemma set_commit_call h m t s : represents h m t ->
  exists m', call_set_commit ord s (h, m) = Some (h, m') /\ m_commit m' = s /\ m_name m' = m_name m /\ m_path m' = m_path m /\ same_contents m m' /\ represents h m' t.
Proof.
  intros R. destruct (metadata ord h m s) as (_ & (m' & E & a & b & c & d) & _). exists m'.
  assert (R' : represents h m' t).
  { destruct R as [r1 r2 r3 r4 r5 r6 r7 r8 r9]. destruct d as (d1 & d2 & d3 & _). constructor; congruence || (rewrite ?d2, ?d3; assumption). }
  split; [exact (call_one _ _ _ _ _ _ _ R E R')|auto].
Qed.
End Order.
