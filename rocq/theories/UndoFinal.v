(** Undoing modifications. *)
From Coq Require Import List ZArith Arith Bool Ascii Permutation Lia.
From Verif Require Import Text TextProofs ConstraintModel SourceRangeModel SourceRangeProofs FeatureTreeModel FeatureTreeSpec FeatureTreeProofs FeatureTransactionModel FeatureEditSpec FeatureEditProofs
  FeatureOpsProofs FeatureRemoveProofs FeatureDataProofs FeatureRootProofs FeatureBuildProofs FeatureHistoryProofs FeatureTransactionFinal UndoSpec.
Import ListNotations.

Lemma represents_same_cells h h' m t : represents h m t -> heap_ok h' -> same_cells h h' -> represents h' m t.
Proof.
  intros R O E. destruct R as [O1 H D Rt Rs F N G S1]. constructor; try assumption. intros i c I. rewrite E. apply H. exact I.
Qed.
Lemma add_remove_again l i : ~ In i l -> set_remove i (l ++ [i]) = l.
Proof.
  intros N. unfold set_remove. rewrite filter_app. cbn [filter]. rewrite Nat.eqb_refl. cbn [negb]. rewrite app_nil_r.
  induction l as [|x l IH]; [reflexivity|]. cbn [filter]. destruct (Nat.eqb_spec i x) as [->|_]; [exfalso; apply N; left; reflexivity|]. cbn [negb]. f_equal.
  apply IH. intros X. apply N. right. exact X.
Qed.
Lemma remove_absent l i : ~ In i l -> set_remove i l = l.
Proof.
  intros N. unfold set_remove. induction l as [|x l IH]; [reflexivity|]. cbn [filter]. destruct (Nat.eqb_spec i x) as [->|_]; [exfalso; apply N; left; reflexivity|].
  cbn [negb]. f_equal. apply IH. intros X. apply N. right. exact X.
Qed.
Lemma insert_absent l i : ~ In i l -> set_insert i l = l ++ [i].
Proof.
  intros N. unfold set_insert. destruct (mem i l) eqn:M; [|reflexivity]. exfalso. apply N. unfold mem in M. apply existsb_exists in M.
  destruct M as (x & I & E). apply Nat.eqb_eq in E. subst. exact I.
Qed.
Lemma model_eta m fs rs : with_features (with_features m fs) rs = with_features m rs.
Proof. reflexivity. Qed.

Lemma option_eq_dec_root m c : m_root m = Some c \/ m_root m <> Some c.
Proof. destruct (m_root m) as [r|]; [destruct (Nat.eq_dec r c) as [->|N]; [left; reflexivity|right; congruence]|right; discriminate]. Qed.

Section Undo.
Variable ord : list nid -> list nid.
Hypothesis ord_ok : is_order ord.

(** Removing a feature without children. *)
Lemma remove_plain h m i f q cq b : heap_ok h -> NoDup (map fst (m_features m)) -> get_feature m (f_name f) = Some i -> h_cells h i = Some (Cell (NFeature f) (Some q) []) -> q <> i ->
  h_cells h q = Some cq -> m_root m <> Some i ->
  exists h' m', exec ord (ORemoveFeature (ByName (f_name f)) b) (h, m) = Some ((h', m'), None) /\ gone h h' [i] q i /\ less m m' [f_name f] [].
Proof.
  intros O D G C Nq Cq Nr. assert (Hs : holds h (Some q) (Node i (NFeature f) [])) by (apply holds_node; [exact C|intros t []]).
  assert (Ds : NoDup (ids (Node i (NFeature f) []))) by (constructor; [intros []|constructor]).
  destruct (detach_ok h m i q _ cq (f_name f) C eq_refl Nq Cq) as (h' & m' & E & Go & L); [unfold name_at, feature_at; rewrite C; reflexivity|exact G|exact Nr|].
  exists h', m'. split; [|split; assumption].
  assert (Cf : child_features ord h i = Some []) by (unfold child_features; rewrite (get_children_tree ord is_feature h _ i _ _ O Hs Ds); cbn [flat_map map]; rewrite (ord_nil ord ord_ok); reflexivity).
  assert (Cr : child_relationships ord h i = Some []) by (unfold child_relationships; rewrite (get_children_tree ord is_relationship h _ i _ _ O Hs Ds); cbn [flat_map map]; rewrite (ord_nil ord ord_ok); reflexivity).
  cbn [exec]. unfold exec_remove_feature. cbn [resolve]. rewrite G. destruct b.
  - cbn [remove_tree fst snd]. rewrite Cf. cbn [bind fold_left fst snd]. rewrite Cr. cbn [bind fold_left fst snd]. rewrite E. reflexivity.
  - rewrite Cf. cbn [bind]. rewrite Cr. cbn [bind fst snd]. rewrite E. reflexivity.
Qed.

Definition undoes (h : heap) (m : fmodel) (o o' : op) : Prop :=
  exists h1 m1 t1, exec ord o (h, m) = Some ((h1, m1), None) /\ represents h1 m1 t1 /\
    forall h1', heap_ok h1' -> same_cells h1 h1' -> exists h2, exec ord o' (h1', m1) = Some ((h2, m), None) /\ heap_ok h2 /\ same_cells h h2.

Lemma undoes_add h m t f p b : represents h m t -> f_kind f <> FRoot -> get_feature m (f_name f) = None -> (forall q, p = Some q -> In q (map snd (m_features m))) ->
  undoes h m (OAddFeature f p) (ORemoveFeature (ByName (f_name f)) b).
Proof.
  intros R K G P.
  assert (exists s, subtree s t /\ is_feature (rdata s) = true /\ (p = Some (rid s) \/ p = None /\ s = t)) as (s & S1 & Fs & Ps).
  { destruct p as [q|].
    - specialize (P q eq_refl). apply (rep_feature_node R) in P. destruct P as (s & x & S1 & Es & F). exists s. subst q. rewrite F. auto.
    - exists t. split; [constructor|]. destruct (rep_top_data R) as (f0 & -> & _). split; [reflexivity|]. right. auto. }
  destruct (exec_add_feature_ok ord h m t f p s R K G S1 Fs Ps) as (h1 & m1 & E1 & R1 & Em & Hn & Fr).
  exists h1, m1, (edit (rid s) (add_kid (Node (h_next h) (NFeature f) [])) t). split; [exact E1|]. split; [exact R1|]. intros h1' O1 C1.
  destruct (rep_cell R s S1) as (q & C). assert (In (rid s) (ids t)) as Is by (eapply subtree_ids; [exact S1|apply rid_in_ids]).
  assert (rid s <> h_next h) as Ne by (intros X; apply (rep_fresh R); rewrite <- X; exact Is).
  assert (Nk : ~ In (h_next h) (map rid (kids s))) by (apply (rep_unlisted h m t s _ R S1); apply (rep_fresh R)).
  assert (h_cells h1 (h_next h) = Some (Cell (NFeature f) (Some (rid s)) []) /\ h_cells h1 (rid s) = Some (Cell (rdata s) q (map rid (kids s) ++ [h_next h]))) as (Ci & Cs).
  { assert (exec ord (OAddFeature f p) (h, m) = Some ((h_set (h_set (snd (h_alloc h (Cell (NFeature f) None []))) (h_next h) (Some (Cell (NFeature f) (Some (rid s)) []))) (rid s)
      (Some (Cell (rdata s) q (set_insert (h_next h) (map rid (kids s))))), with_features m (m_features m ++ [(f_name f, h_next h)])), None)) as E2.
    { cbn [exec]. unfold exec_add_feature, store_feature. rewrite G. cbn [h_alloc snd].
      assert (forall a, link {| h_cells := fun j => if j =? h_next h then Some (Cell (NFeature f) None []) else h_cells h j; h_next := S (h_next h) |} (rid s) (h_next h) = Some a ->
        (let* h2 := link {| h_cells := fun j => if j =? h_next h then Some (Cell (NFeature f) None []) else h_cells h j; h_next := S (h_next h) |} (rid s) (h_next h) in success (h2, with_features m (m_features m ++ [(f_name f, h_next h)]))) = Some ((a, with_features m (m_features m ++ [(f_name f, h_next h)])), None)) as X by (intros a ->; reflexivity).
      assert (link {| h_cells := fun j => if j =? h_next h then Some (Cell (NFeature f) None []) else h_cells h j; h_next := S (h_next h) |} (rid s) (h_next h) =
        Some (h_set (h_set {| h_cells := fun j => if j =? h_next h then Some (Cell (NFeature f) None []) else h_cells h j; h_next := S (h_next h) |} (h_next h) (Some (Cell (NFeature f) (Some (rid s)) []))) (rid s) (Some (Cell (rdata s) q (set_insert (h_next h) (map rid (kids s))))))) as Y.
      { unfold link. rewrite (set_parent_some _ _ _ (Cell (NFeature f) None [])) by (cbn [h_cells]; rewrite Nat.eqb_refl; reflexivity). cbn [bind].
        rewrite (add_edge_some _ _ _ (Cell (rdata s) q (map rid (kids s)))); [reflexivity|]. rewrite h_set_other by exact Ne. cbn [h_cells]. apply Nat.eqb_neq in Ne. rewrite Ne. exact C. }
      destruct Ps as [-> | (-> & ->)]; [exact (X _ Y)|]. cbn [m_root with_features]. rewrite (rep_root _ _ _ R). exact (X _ Y). }
    rewrite E1 in E2. injection E2 as -> _. split.
    - rewrite h_set_other by (intros X; apply Ne; symmetry; exact X). rewrite h_set_same. reflexivity.
    - rewrite h_set_same, (insert_absent _ _ Nk). reflexivity. }
  destruct (remove_plain h1' m1 (h_next h) f (rid s) (Cell (rdata s) q (map rid (kids s) ++ [h_next h])) b) as (h2 & m2 & E2 & (Hn2 & Z & U) & (Sr & Er & (pf & Ef & Pf) & El)).
  - exact O1.
  - apply (rep_keys R1).
  - apply find_name_in; [apply (rep_keys R1)|]. rewrite Em. cbn [m_features with_features]. apply in_or_app. right. left. reflexivity.
  - rewrite C1. exact Ci.
  - exact Ne.
  - rewrite C1. exact Cs.
  - rewrite Em. cbn [m_root with_features]. rewrite (rep_root _ _ _ R). intros X. injection X as X. apply (rep_fresh R). rewrite <- X. apply rid_in_ids.
  - exists h2. assert (m2 = m) as ->.
    { destruct m2 as [a1 a2 a3 a4 a5 a6 a7 a8 a9]. destruct Sr as (X1 & X2 & X3 & X4 & X5 & X6). cbn in *. rewrite Em in *. cbn in *.
      rewrite filter_app in Ef. cbn [filter] in Ef.
      destruct (pf (f_name f, h_next h)) eqn:Pn.
      { exfalso. apply (proj1 (Pf (f_name f, h_next h) ltac:(apply in_or_app; right; left; reflexivity)) Pn). left. reflexivity. }
      rewrite app_nil_r in Ef. assert (a5 = m_features m) as ->.
      { rewrite Ef. clear Ef. assert (Q : forall l, incl l (m_features m) -> filter pf l = l).
        { induction l as [|e l IH]; intros Il; [reflexivity|]. cbn [filter].
          assert (pf e = true) as ->.
          { apply Pf; [apply in_or_app; left; apply Il; left; reflexivity|]. intros [X|[]]. destruct e as [n i]. cbn in X. subst n.
            assert (get_feature m (f_name f) = Some i) as Y by (apply find_name_in; [apply (rep_keys R)|apply Il; left; reflexivity]). congruence. }
          f_equal. apply IH. intros x Ix. apply Il. right. exact Ix. }
        apply Q. apply incl_refl. }
      assert (Qr : forall l : list nid, filter (fun _ => true) l = l) by (induction l as [|x l IH]; [reflexivity|cbn [filter]; f_equal; exact IH]).
      rewrite Qr in El. destruct m. cbn in *. congruence. }
    split; [exact E2|]. split.
    + intros j J. rewrite Hn2 in J. destruct (Nat.eq_dec j (h_next h)) as [->|Nj]; [apply Z; left; reflexivity|]. rewrite U by (intros [X|[]]; apply Nj; symmetry; exact X). rewrite (O1 j J). reflexivity.
    + intros j. destruct (Nat.eq_dec j (h_next h)) as [->|Nj]; [rewrite (Z _ (or_introl eq_refl)); symmetry; apply (rep_ok _ _ _ R); lia|].
      rewrite U by (intros [X|[]]; apply Nj; symmetry; exact X). rewrite C1. destruct (Nat.eqb_spec (rid s) j) as [<-|Nq].
      * rewrite Cs. cbn [option_map n_data n_parent n_edges]. rewrite (add_remove_again _ _ Nk), C. reflexivity.
      * rewrite (Fr j Nj (fun X => Nq (eq_sym X))). destruct (h_cells h j) as [[a b' c]|]; reflexivity.
Qed.

Lemma undoes_location h m t r l i f : represents h m t -> resolve m r = Some i -> In i (map snd (m_features m)) -> feature_at h i = Some f -> Forall (fun y => range_eqb y l = false) (f_locations f) ->
  undoes h m (OAddLocation r l) (ORemoveLocation r l).
Proof.
  intros R E I F N. unfold feature_at in F. destruct (h_cells h i) as [[d p e]|] eqn:C; [|discriminate F]. cbn [bind n_data] in F. destruct d as [x|]; [|discriminate F]. injection F as ->.
  set (h1 := h_set h i (Some (Cell (NFeature (with_locations f (add_location (f_locations f) l))) p e))).
  assert (E1 : exec ord (OAddLocation r l) (h, m) = Some ((h1, m), None)).
  { cbn [exec]. unfold exec_add_location, modify_feature. rewrite E. cbn [bind]. rewrite C. cbn [bind n_data n_parent n_edges]. reflexivity. }
  assert (A : allowed (h, m) (OAddLocation r l)).
  { cbn [allowed]. destruct r as [s|n]; [exact Logic.I|]. cbn [resolve] in E. injection E as ->. exact I. }
  destruct (step_represents ord ord_ok h m t _ h1 m None R A E1) as (t1 & R1).
  exists h1, m, t1. split; [exact E1|]. split; [exact R1|]. intros h1' O1 C1.
  exists (h_set h1' i (Some (Cell (NFeature f) p e))). split; [|split].
  - cbn [exec]. unfold exec_remove_location, modify_feature. rewrite E. cbn [bind]. rewrite C1. unfold h1. rewrite h_set_same. cbn [bind n_data n_parent n_edges with_locations f_locations f_kind f_name f_output f_constraints f_excludes f_implications f_optional].
    rewrite (add_then_remove _ _ N). cbn [bind]. destruct f. reflexivity.
  - apply h_set_ok; [exact O1|]. assert (X : h_cells h1' i <> None) by (rewrite C1; unfold h1; rewrite h_set_same; discriminate).
    destruct (le_lt_dec (h_next h1') i) as [L|L]; [exfalso; apply X; apply O1; exact L|exact L].
  - intros j. rewrite h_set_cells. destruct (Nat.eqb_spec j i) as [->|Nj]; [symmetry; exact C|]. rewrite C1. unfold h1. apply h_set_other. exact Nj.
Qed.

Lemma undoes_move h m t rp rc rq p c q cc cq l : represents h m t -> resolve m rp = Some p -> In p (nodes m) -> resolve m rc = Some c -> In c (map snd (m_features m)) -> ~ reaches h p c -> resolve m rq = Some q ->
  h_cells h c = Some cc -> n_parent cc = Some q -> h_cells h q = Some cq -> n_edges cq = l ++ [c] ->
  undoes h m (OAddChild rp rc) (OAddChild rq rc).
Proof.
  intros R Ep Ip Ec Ic N Eq Cc Pc Cq Le.
  assert (A : allowed (h, m) (OAddChild rp rc)).
  { cbn [allowed]. split; [|split].
    - destruct rp as [s|n]; [exact Logic.I|]. cbn [resolve] in Ep. injection Ep as ->. exact Ip.
    - destruct rc as [s|n]; [exact Logic.I|]. cbn [resolve] in Ec. injection Ec as ->. exact Ic.
    - intros i j X Y. rewrite Ep in X. rewrite Ec in Y. injection X as <-. injection Y as <-. exact N. }
  pose proof (represents_tree_shaped h m t R) as T.
  assert (Ncp : c <> p) by (intros ->; apply N; econstructor; exact Cc).
  assert (Icn : In c (nodes m)) by (unfold nodes; apply in_or_app; left; exact Ic).
  destruct (ids_subtree p t) as (sp & Sp & Esp); [apply (rep_node R); exact Ip|].
  destruct (rep_cell R sp Sp) as (pp & Cp). rewrite Esp in Cp.
  assert (Iq : In q (nodes m)).
  { destruct (option_eq_dec_root m c) as [Er|Nr].
    - destruct (ts_root _ _ T) as (r & cr & fr & Er' & _ & Cr & Pr & _). rewrite Er in Er'. injection Er' as <-. rewrite Cc in Cr. injection Cr as <-. rewrite Pc in Pr. discriminate Pr.
    - destruct (ts_parent _ _ T c Icn Nr) as (c0 & q0 & cq0 & C0 & P0 & I0 & _). rewrite Cc in C0. injection C0 as <-. rewrite Pc in P0. injection P0 as <-. exact I0. }
  assert (Ncq : c <> q).
  { intros <-. rewrite Cc in Cq. injection Cq as <-. apply (rep_node R) in Icn. destruct (ids_subtree c t Icn) as (s & S1 & Es). destruct (rep_cell R s S1) as (o & C). rewrite Es, Cc in C. injection C as ->. cbn in *. subst o.
    destruct (ts_listed _ _ T c _ c Iq Cc) as (_ & _); [rewrite Le; apply in_or_app; right; left; reflexivity|].
    pose proof (subtree_nodup s t S1 (rep_ids _ _ _ R)) as Ds. destruct s as [n d ts]. cbn [rid kids ids] in *. apply NoDup_cons_iff in Ds. destruct Ds as (Ds & _). apply Ds.
    assert (In c (map rid ts)) as X by (rewrite Le; apply in_or_app; right; left; reflexivity). apply in_map_iff in X. destruct X as (u & Eu & Iu). apply in_flat_map. exists u. split; [exact Iu|]. rewrite Es, <- Eu. apply rid_in_ids. }
  assert (Nl : ~ In c l).
  { destruct (option_eq_dec_root m c) as [Er|Nr].
    - destruct (ts_root _ _ T) as (r & cr & fr & Er' & _ & Cr & Pr & _). rewrite Er in Er'. injection Er' as <-. rewrite Cc in Cr. injection Cr as <-. rewrite Pc in Pr. discriminate Pr.
    - destruct (ts_parent _ _ T c Icn Nr) as (c0 & q0 & cq0 & C0 & P0 & _ & C1 & Co). rewrite Cc in C0. injection C0 as <-. rewrite Pc in P0. injection P0 as <-. rewrite Cq in C1. injection C1 as <-.
      rewrite Le, count_occ_app in Co. cbn [count_occ] in Co. destruct (Nat.eq_dec c c) as [_|X]; [|contradiction]. intros X. apply (count_occ_In Nat.eq_dec) in X. unfold nid in *. lia. }
  assert (Np : p <> q -> ~ In c (map rid (kids sp))).
  { intros Npq X. destruct (ts_listed _ _ T p _ c Ip Cp X) as (_ & c0 & C0 & P0). rewrite Cc in C0. injection C0 as <-. congruence. }
  destruct cc as [dc pc ec]. destruct cq as [dq pq eq]. cbn [n_parent n_edges n_data] in *. subst pc eq.
  set (h1 := h_set (h_set (h_set h q (Some (Cell dq pq l))) p
    (Some (if Nat.eqb p q then Cell dq pq (l ++ [c]) else Cell (rdata sp) pp (map rid (kids sp) ++ [c])))) c (Some (Cell dc (Some p) ec))).
  assert (E1 : exec ord (OAddChild rp rc) (h, m) = Some ((h1, m), None)).
  { cbn [exec]. unfold exec_add_child. rewrite Ec, Ep. destruct (Nat.eqb_spec c p) as [X|_]; [contradiction|]. rewrite Cc. cbn [bind n_parent].
    rewrite (remove_edge_some _ _ _ _ Cq). cbn [bind n_data n_parent n_edges]. rewrite (add_remove_again _ _ Nl). unfold h1. destruct (Nat.eqb_spec p q) as [X|Npq].
    - subst q. rewrite (add_edge_some _ _ _ (Cell dq pq l)) by apply h_set_same. cbn [bind n_data n_parent n_edges]. rewrite (insert_absent _ _ Nl).
      rewrite (set_parent_some _ _ _ (Cell dc (Some p) ec)) by (rewrite !h_set_other by exact Ncp; exact Cc). reflexivity.
    - rewrite (add_edge_some _ _ _ (Cell (rdata sp) pp (map rid (kids sp)))) by (rewrite h_set_other by exact Npq; exact Cp). cbn [bind n_data n_parent n_edges]. rewrite (insert_absent _ _ (Np Npq)).
      rewrite (set_parent_some _ _ _ (Cell dc (Some q) ec)) by (rewrite !h_set_other by assumption; exact Cc). reflexivity. }
  destruct (step_represents ord ord_ok h m t _ h1 m None R A E1) as (t1 & R1).
  exists h1, m, t1. split; [exact E1|]. split; [exact R1|]. intros h1' O1 C1.
  assert (L1 : forall j, h_cells h1' j <> None -> j < h_next h1').
  { intros j X. destruct (le_lt_dec (h_next h1') j) as [L|L]; [exfalso; apply X; apply O1; exact L|exact L]. }
  assert (X1 : h_cells h1' c = Some (Cell dc (Some p) ec)) by (rewrite C1; apply h_set_same).
  destruct (Nat.eq_dec p q) as [<-|Npq].
  - assert (X2 : h_cells h1' p = Some (Cell dq pq (l ++ [c]))).
    { rewrite C1. unfold h1. rewrite h_set_other by (intros X; apply Ncp; symmetry; exact X). rewrite h_set_same, Nat.eqb_refl. reflexivity. }
    exists (h_set (h_set (h_set h1' p (Some (Cell dq pq l))) p (Some (Cell dq pq (l ++ [c])))) c (Some (Cell dc (Some p) ec))). split; [|split].
    + cbn [exec]. unfold exec_add_child. rewrite Ec, Eq. destruct (Nat.eqb_spec c p) as [X|_]; [contradiction|]. rewrite X1. cbn [bind n_parent].
      rewrite (remove_edge_some _ _ _ _ X2). cbn [bind n_data n_parent n_edges]. rewrite (add_remove_again _ _ Nl).
      rewrite (add_edge_some _ _ _ (Cell dq pq l)) by apply h_set_same. cbn [bind n_data n_parent n_edges]. rewrite (insert_absent _ _ Nl).
      rewrite (set_parent_some _ _ _ (Cell dc (Some p) ec)) by (rewrite !h_set_other by exact Ncp; exact X1). reflexivity.
    + repeat apply h_set_ok; try exact O1; cbn [h_next h_set]; apply L1; congruence.
    + intros j. rewrite !h_set_cells. destruct (Nat.eqb_spec j c) as [->|Nc]; [symmetry; exact Cc|]. destruct (Nat.eqb_spec j p) as [->|Nj]; [symmetry; exact Cq|].
      rewrite C1. unfold h1. rewrite !h_set_other by assumption. reflexivity.
  - assert (X2 : h_cells h1' p = Some (Cell (rdata sp) pp (map rid (kids sp) ++ [c]))).
    { rewrite C1. unfold h1. rewrite h_set_other by (intros X; apply Ncp; symmetry; exact X). rewrite h_set_same. destruct (Nat.eqb_spec p q) as [X|_]; [contradiction|reflexivity]. }
    assert (X3 : h_cells h1' q = Some (Cell dq pq l)).
    { rewrite C1. unfold h1. rewrite h_set_other by (intros X; apply Ncq; symmetry; exact X). rewrite h_set_other by (intros X; apply Npq; symmetry; exact X). apply h_set_same. }
    exists (h_set (h_set (h_set h1' p (Some (Cell (rdata sp) pp (map rid (kids sp))))) q (Some (Cell dq pq (l ++ [c])))) c (Some (Cell dc (Some q) ec))). split; [|split].
    + cbn [exec]. unfold exec_add_child. rewrite Ec, Eq. destruct (Nat.eqb_spec c q) as [X|_]; [contradiction|]. rewrite X1. cbn [bind n_parent].
      rewrite (remove_edge_some _ _ _ _ X2). cbn [bind n_data n_parent n_edges]. rewrite (add_remove_again _ _ (Np Npq)).
      rewrite (add_edge_some _ _ _ (Cell dq pq l)) by (rewrite h_set_other by (intros X; apply Npq; symmetry; exact X); exact X3). cbn [bind n_data n_parent n_edges]. rewrite (insert_absent _ _ Nl).
      rewrite (set_parent_some _ _ _ (Cell dc (Some p) ec)) by (rewrite !h_set_other by assumption; exact X1). reflexivity.
    + repeat apply h_set_ok; try exact O1; cbn [h_next h_set]; apply L1; congruence.
    + intros j. rewrite !h_set_cells. destruct (Nat.eqb_spec j c) as [->|Nc]; [symmetry; exact Cc|]. destruct (Nat.eqb_spec j q) as [->|Nq]; [symmetry; exact Cq|].
      destruct (Nat.eqb_spec j p) as [->|Nj]; [symmetry; exact Cp|]. rewrite C1. unfold h1. rewrite !h_set_other by assumption. reflexivity.
Qed.

Theorem undone h m t o o' : represents h m t -> undone_by h m o o' -> undoes h m o o'.
Proof.
  intros R U. destruct U.
  - eapply undoes_add; eassumption.
  - eapply undoes_location; eassumption.
  - eapply undoes_move; eassumption.
  - exists h, (with_name m s), t. split; [reflexivity|]. split; [destruct R; constructor; assumption|].
    intros h1 O C. exists h1. split; [cbn [exec]; destruct m; reflexivity|]. split; assumption.
  - exists h, (with_commit m s), t. split; [reflexivity|]. split; [destruct R; constructor; assumption|].
    intros h1 O C. exists h1. split; [cbn [exec]; destruct m; reflexivity|]. split; assumption.
  - exists h, (with_path m s), t. split; [reflexivity|]. split; [destruct R; constructor; assumption|].
    intros h1 O C. exists h1. split; [cbn [exec]; destruct m; reflexivity|]. split; assumption.
Qed.

(** One modification. *)
Theorem modification_undone h m t o o' : represents h m t -> undone_by h m o o' ->
  exists h1 m1 h2, exec ord o (h, m) = Some ((h1, m1), None) /\ exec ord o' (h1, m1) = Some ((h2, m), None) /\ same_cells h h2 /\ represents h2 m t.
Proof.
  intros R U. destruct (undone h m t o o' R U) as (h1 & m1 & t1 & E1 & R1 & B). destruct (B h1 (rep_ok _ _ _ R1) (fun i => eq_refl)) as (h2 & E2 & O2 & C2).
  exists h1, m1, h2. split; [exact E1|]. split; [exact E2|]. split; [exact C2|]. exact (represents_same_cells _ _ _ _ R O2 C2).
Qed.

(** A sequence. *)
Lemma run_undone os : forall us h m t, represents h m t -> undoable ord (h, m) os us ->
  exists h1 m1 t1, run ord os (h, m) = Some ((h1, m1), None) /\ represents h1 m1 t1 /\
    forall h1', heap_ok h1' -> same_cells h1 h1' -> exists h2, run ord us (h1', m1) = Some ((h2, m), None) /\ heap_ok h2 /\ same_cells h h2.
Proof.
  induction os as [|o os IH]; intros us h m t R U; inversion U; subst.
  - exists h, m, t. split; [reflexivity|]. split; [exact R|]. intros h1 O C. exists h1. split; [reflexivity|]. split; assumption.
  - destruct (undone h m t o o' R ltac:(assumption)) as (h1 & m1 & t1 & E1 & R1 & B).
    match goal with H : exec ord o (h, m) = _ |- _ => rewrite E1 in H; injection H as <- end.
    match goal with H : undoable ord (h1, m1) os _ |- _ => destruct (IH _ _ _ _ R1 H) as (h2 & m2 & t2 & E2 & R2 & B2) end.
    exists h2, m2, t2. split; [cbn [run]; rewrite E1; exact E2|]. split; [exact R2|]. intros h2' O2 C2. destruct (B2 h2' O2 C2) as (h3 & E3 & O3 & C3).
    destruct (B h3 O3 C3) as (h4 & E4 & O4 & C4). exists h4. split; [|split; assumption]. rewrite (run_app ord), E3. cbn [run]. rewrite E4. reflexivity.
Qed.

Theorem transaction_undone h m t os us : represents h m t -> undoable ord (h, m) os us ->
  exists w1 h2, commit_modify ord (Mtx true os) (h, m) = Some (Mtx false os, w1, None) /\ commit_modify ord (Mtx true us) w1 = Some (Mtx false us, (h2, m), None) /\
    commit_modify ord (Mtx true (os ++ us)) (h, m) = Some (Mtx false (os ++ us), (h2, m), None) /\ same_cells h h2 /\ represents h2 m t.
Proof.
  intros R U. destruct (run_undone os us h m t R U) as (h1 & m1 & t1 & E1 & R1 & B). destruct (B h1 (rep_ok _ _ _ R1) (fun i => eq_refl)) as (h2 & E2 & O2 & C2).
  pose proof (represents_same_cells _ _ _ _ R O2 C2) as R2. exists (h1, m1), h2. unfold commit_modify. cbn [t_open t_queue]. rewrite (run_app ord), E1. cbn [bind fst snd].
  rewrite (represents_consistent _ _ _ R1), E2. cbn [bind fst snd]. rewrite (represents_consistent _ _ _ R2). cbn [bind].
  repeat (split; [reflexivity|]). split; [exact C2|exact R2].
Qed.
End Undo.

(** ** The root *)
Theorem root_replaced_twice ord h m t s : represents h m t -> get_feature m s = None -> exists h1 m1 h2 m2,
  exec ord (OSetRoot s) (h, m) = Some ((h1, m1), None) /\ exec ord (OSetRoot (tname t)) (h1, m1) = Some ((h2, m2), None) /\
  represents h2 m2 (Node (S (h_next h)) (NFeature (root_feature (tname t))) (kids t)) /\ same_rest m m2 /\ m_relationships m2 = m_relationships m /\
  Permutation (map fst (m_features m2)) (map fst (m_features m)).
Proof.
  intros R G. destruct (exec_set_root_ok ord h m t s R G) as (h1 & m1 & E1 & R1 & S1 & L1 & N1 & _ & _).
  assert (G1 : get_feature m1 (tname t) = None).
  { destruct (get_feature m1 (tname t)) as [i|] eqn:E; [|reflexivity]. exfalso. apply (find_name_in _ _ _ (rep_keys R1)) in E. apply (Permutation_in _ (rep_features _ _ _ R1)) in E.
    pose proof (rep_names _ _ _ R) as N. destruct t as [n d ts]. destruct (rep_top_data R) as (f & Ed & _). cbn [rdata] in Ed. subst d. cbn [tname rdata named kids app] in *.
    destruct E as [E|E].
    - injection E as E _. assert (get_feature m (f_name f) = Some n) as X by (apply find_name_in; [apply (rep_keys R)|]; apply (Permutation_in _ (Permutation_sym (rep_features _ _ _ R))); left; reflexivity).
      rewrite <- E in X. congruence.
    - cbn [map] in N. apply NoDup_cons_iff in N. destruct N as (N & _). apply N. apply in_map_iff. exists (f_name f, i). split; [reflexivity|exact E]. }
  destruct (exec_set_root_ok ord h1 m1 _ (tname t) R1 G1) as (h2 & m2 & E2 & R2 & S2 & L2 & _).
  exists h1, m1, h2, m2. split; [exact E1|]. split; [exact E2|]. rewrite N1 in R2. cbn [kids] in R2. split; [exact R2|]. split; [unfold same_rest in *; intuition congruence|]. split; [congruence|].
  rewrite (rep_features _ _ _ R2), (rep_features _ _ _ R). destruct t as [n d ts]. destruct (rep_top_data R) as (f & Ed & _). cbn [rdata] in Ed. subst d. cbn [tname rdata named kids app map fst root_feature f_name]. reflexivity.
Qed.
