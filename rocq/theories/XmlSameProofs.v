(** Models that look the same are saved as the same document. *)
From Coq Require Import List ZArith NArith Arith Bool Ascii String Permutation Sorted Lia.
From Verif Require Import Text TextProofs NumSpec LlvmInt ConstraintModel ConstraintParserModel ConstraintSpec SourceRangeModel FeatureTreeModel FeatureTreeSpec FeatureTransactionModel
  FeatureTransactionSpec FeatureEditSpec FeatureTreeProofs FeatureOrderProofs FeatureTreeFinal FeatureEditProofs FeatureTransactionFinal FeatureDataProofs FeatureCloneSpec FeatureCloneProofs FeatureMergeResult FeatureBuildSpec SxfmModel XmlModel
  XmlWriterModel XmlSpec XmlDetectProofs XmlReadProofs XmlTripSpec XmlTripText XmlTripWrite XmlTripOption XmlTripCalls XmlTripDoc XmlTripFinal RegisterSpec XmlCycleSpec XmlCountSpec XmlCountProofs FeatureEqProofs XmlSameSpec.
Import ListNotations.
Local Open Scope string_scope.
Local Open Scope list_scope.
Local Open Scope nat_scope.

(** ** Sorted lists *)
Lemma sorted_equal {A} (P : A -> A -> Prop) l : (forall a b, P a b -> ~ P b a) -> forall l', Permutation l l' -> StronglySorted (fun x y => x = y \/ P x y) l -> StronglySorted (fun x y => x = y \/ P x y) l' -> l = l'.
Proof.
  intros As. induction l as [|a l IH]; intros l' Pm S1 S2; [apply Permutation_nil in Pm; congruence|]. destruct l' as [|b l']; [symmetry in Pm; apply Permutation_nil in Pm; discriminate|].
  apply StronglySorted_inv in S1, S2. destruct S1 as (S1 & F1), S2 as (S2 & F2). assert (E : a = b).
  { assert (Ia : In a (b :: l')) by (apply (Permutation_in _ Pm); left; reflexivity). assert (Ib : In b (a :: l)) by (apply (Permutation_in _ (Permutation_sym Pm)); left; reflexivity).
    destruct Ia as [E|Ia]; [congruence|]. destruct Ib as [E|Ib]; [congruence|]. rewrite Forall_forall in F1, F2. destruct (F1 b Ib) as [E|X]; [exact E|]. destruct (F2 a Ia) as [E|Y]; [congruence|]. destruct (As _ _ X Y). }
  subst b. f_equal. apply IH; auto. exact (Permutation_cons_inv Pm).
Qed.
Lemma sorted_map {A B} (P : A -> A -> Prop) (Q : B -> B -> Prop) (F : A -> B -> Prop) l l' : (forall a b x y, F a x -> F b y -> P a b -> Q x y) -> Forall2 F l l' -> StronglySorted P l -> StronglySorted Q l'.
Proof.
  intros H X. induction X as [|a x l l' Fa X IH]; intros S; [constructor|]. apply StronglySorted_inv in S. destruct S as (S & A0). constructor; [exact (IH S)|]. rewrite Forall_forall in A0. apply Forall_forall. intros y Iy.
  destruct (XmlDetectFinal.forall2_right _ _ _ X y Iy) as (b & Ib & Fb). exact (H a b x y Fa Fb (A0 b Ib)).
Qed.

(** ** Order by names *)
Section Model.
Variables (h : heap) (m : fmodel) (t : tree).
Hypothesis R : represents h m t.
Hypothesis D : siblings_differ h m.

Lemma differ_tree : distinct_siblings t.
Proof.
  intros s S1 Fs. pose proof (subtree_nodup _ _ S1 (rep_ids _ _ _ R)) as N. destruct (holds_sub h None t s (rep_holds _ _ _ R) S1) as (o & Hs). pose proof N as N0.
  assert (Gs : exists f, rdata s = NFeature f) by (destruct (rdata s) as [f|]; [eauto|discriminate]). destruct Gs as (fs & Ds).
  assert (Is : In (rid s) (feature_ids t)) by (apply SolverEncodingProofs.feature_ids_subtree; exists s; rewrite Ds; auto). destruct (id_data h m t R (rid s) Is) as (gs & _ & Gs).
  destruct s as [n d ts]. cbn [kids ids rid rdata] in *. apply NoDup_cons_iff in N. pose proof (near_nodup ts (proj2 N)) as Nn.
  apply nodup_map_in; [exact (nodup_trees _ Nn)|]. intros u v Iu Iv E. apply (same_id_tree _ u v Nn Iu Iv).
  assert (X : forall w, In w (near ts) -> exists f, tname w = f_name f /\ get_feature m (f_name f) = Some (rid w) /\ parent_named h m (f_name f) (f_name gs)).
  { intros w Iw. pose proof (near_feature ts w Iw) as Fw. assert (Sw : subtree w t) by exact (subtree_trans _ _ _ (near_subtree n d ts w Iw) S1). destruct (rdata w) as [f|] eqn:Dw; [|discriminate]. exists f. split; [unfold tname; rewrite Dw; reflexivity|].
    assert (Im : In (rid w) (feature_ids t)) by (apply SolverEncodingProofs.feature_ids_subtree; exists w; rewrite Dw; auto).
    destruct (id_data h m t R (rid w) Im) as (f' & F' & G'). destruct (rep_cell R w Sw) as (o' & C). unfold feature_at in F'. rewrite C in F'. cbn in F'. rewrite Dw in F'. assert (f' = f) as -> by congruence. split; [exact G'|].
    exists (rid w), n. split; [exact G'|]. split; [exact Gs|]. exact (above_kid h m t R w n d ts o Hs N0 Fs Iw). }
  destruct (X u Iu) as (f & Tf & Gf & Pf). destruct (X v Iv) as (g & Tg & Gg & Pg). unfold lname in E. rewrite Tf, Tg in E. pose proof (D _ _ _ Pf Pg E). congruence.
Qed.
Definition less_named (s u : text) : Prop := exists i j, get_feature m s = Some i /\ get_feature m u = Some j /\ feature_less h i j = Some true.
Lemma less_asym s u : less_named s u -> ~ less_named u s.
Proof.
  intros (i & j & Gi & Gj & L) (j' & i' & Gj' & Gi' & L'). assert (i' = i) as -> by congruence. assert (j' = j) as -> by congruence.
  pose proof (in_ids h m t R _ _ Gi) as Ii. pose proof (in_ids h m t R _ _ Gj) as Ij.
  destruct (comparison_strict_total h t i j i (rep_ok _ _ _ R) (rep_holds _ _ _ R) (rep_ids _ _ _ R) (rep_top_feature h m t R) differ_tree Ii Ij Ii) as (Irr & Tr & _). specialize (Tr L L'). congruence.
Qed.
Notation sorted_names := (StronglySorted (fun s u => s = u \/ less_named s u)).
Lemma before_less ord l a b s u : is_order ord -> iterate ord (S (h_next h)) h (Some (rid t)) = Some l -> get_feature m s = Some a -> get_feature m u = Some b -> before l a b -> less_named s u.
Proof.
  intros Oo E Ga Gb B. exists a, b. split; [exact Ga|]. split; [exact Gb|].
  destruct (comparison_is_iteration_order ord h t l a b Oo (rep_ok _ _ _ R) (rep_holds _ _ _ R) (rep_ids _ _ _ R) (rep_top_feature h m t R) differ_tree E (in_ids h m t R _ _ Ga) (in_ids h m t R _ _ Gb)) as (r & -> & X). rewrite (proj2 X B). reflexivity.
Qed.
Lemma insert_all_sorted vs r ns : incl vs (feature_ids t) -> insert_all h [] vs = Some r -> Forall2 (fun j n => get_feature m n = Some j) r ns -> Permutation r vs /\ sorted_names ns.
Proof.
  intros V E F. set (ord := fun l : list nid => l). assert (Oo : is_order ord) by (intros x; apply Permutation_refl).
  destruct (iterate_features ord h t Oo (rep_ok _ _ _ R) (rep_holds _ _ _ R) (rep_ids _ _ _ R) (rep_top_feature h m t R)) as (l & El & _). specialize (El (S (h_next h)) (Nat.lt_succ_diag_r _)).
  destruct (vector_in_iteration_order ord h t l vs Oo (rep_ok _ _ _ R) (rep_holds _ _ _ R) (rep_ids _ _ _ R) (rep_top_feature h m t R) differ_tree El V) as (r' & E' & Pm & Ss). unfold insert_all in E. rewrite E in E'. injection E' as <-. split; [exact Pm|].
  refine (sorted_map _ _ _ _ _ _ F Ss). intros a b s u Ga Gb [->|B]; [left; exact (same_name h m t R s u b Ga Gb)|right; exact (before_less ord l a b s u Oo El Ga Gb B)].
Qed.
Lemma insert_new_all es : forall l r, insert_new h l es = Some r -> exists vs, incl vs es /\ insert_all h l vs = Some r.
Proof.
  assert (None_fold : forall es, fold_left (fun o v => let* l := o in if mem v l then Some l else vector_insert h l v) es None = None) by (induction es0 as [|v es0 IH]; [reflexivity|exact IH]).
  induction es as [|v es IH]; intros l r E; [exists []; split; [intros x []|exact E]|]. unfold insert_new in E. cbn [fold_left bind] in E. destruct (mem v l) eqn:M.
  - destruct (IH l r E) as (vs & V & X). exists vs. split; [intros x I; right; exact (V x I)|exact X].
  - destruct (vector_insert h l v) as [l1|] eqn:Ev; [|rewrite None_fold in E; discriminate]. destruct (IH l1 r E) as (vs & V & X). exists (v :: vs). split; [intros x [->|I]; [left; reflexivity|right; exact (V x I)]|]. unfold insert_all. cbn [fold_left bind]. rewrite Ev. exact X.
Qed.
Lemma insert_new_sorted ss ss' es r ns : incl ss (feature_ids t) -> incl es (feature_ids t) -> insert_all h [] ss = Some ss' -> insert_new h ss' es = Some r -> Forall2 (fun j n => get_feature m n = Some j) r ns -> sorted_names ns.
Proof.
  intros Is Ie E1 E2 F. destruct (insert_new_all es ss' r E2) as (vs & V & E3). apply (insert_all_sorted (ss ++ vs) r ns); [|unfold insert_all in *; rewrite fold_left_app, E1; exact E3|exact F].
  intros x I. apply in_app_iff in I. destruct I as [I|I]; [exact (Is x I)|exact (Ie x (V x I))].
Qed.
Lemma before_sorted {A} (l : list A) : StronglySorted (before l) l.
Proof.
  induction l as [|a l IH]; [constructor|]. constructor.
  - refine (sorted_map (before l) _ eq _ _ _ _ IH); [|clear; induction l; constructor; auto]. intros x y x' y' <- <- (p & q & z & ->). exists (a :: p), q, z. reflexivity.
  - apply Forall_forall. intros x I. apply in_split in I. destruct I as (p & q & ->). exists [], p, q. reflexivity.
Qed.
Lemma iterate_sorted ord l ns : is_order ord -> iterate ord (S (h_next h)) h (m_root m) = Some l -> Forall2 (fun j n => get_feature m n = Some j) l ns -> sorted_names ns.
Proof.
  intros Oo E F. rewrite (rep_root _ _ _ R) in E. refine (sorted_map (before l) _ _ _ _ _ F (before_sorted l)). intros a b s u Ga Gb B. right. exact (before_less ord l a b s u Oo E Ga Gb B).
Qed.
End Model.

(** ** Two models *)
Section Two.
Variables (h : heap) (m : fmodel) (t : tree) (h' : heap) (m' : fmodel) (t' : tree).
Hypothesis R : represents h m t.
Hypothesis R' : represents h' m' t'.
Hypothesis Nm : forall s, (exists i, get_feature m s = Some i) <-> (exists i, get_feature m' s = Some i).
Hypothesis Pn : forall s p, parent_named h' m' s p <-> parent_named h m s p.

Definition twin (i i' : nid) : Prop := exists s, get_feature m s = Some i /\ get_feature m' s = Some i'.
Lemma twin_name i i' : twin i i' -> exists s, name_at h i = Some s /\ name_at h' i' = Some s /\ get_feature m s = Some i /\ get_feature m' s = Some i'.
Proof.
  intros (s & G & G'). exists s. destruct (names_data h m t R s i G) as (f & F & Nf). destruct (names_data h' m' t' R' s i' G') as (g & F' & Ng). unfold name_at. rewrite F, F'. cbn [bind]. rewrite Nf, Ng. auto.
Qed.
Lemma twin_same i i' j j' : twin i i' -> twin j j' -> Nat.eqb i j = Nat.eqb i' j'.
Proof.
  intros (s & G & G') (u & K & K'). destruct (Nat.eqb_spec i j) as [->|N], (Nat.eqb_spec i' j') as [->|N']; try reflexivity.
  - rewrite (same_name h m t R s u j G K) in G'. congruence.
  - rewrite (same_name h' m' t' R' s u j' G' K') in G. congruence.
Qed.
Definition twins (o o' : option nid) : Prop := match o, o' with None, None => True | Some i, Some i' => twin i i' | _, _ => False end.
Lemma twin_parent i i' o o' : twin i i' -> parent_feature h i = Some o -> parent_feature h' i' = Some o' -> twins o o'.
Proof.
  intros (s & G & G') E E'. destruct (parent_ok h m t R i (in_ids h m t R _ _ G)) as [(Ei & X)|(p & Np & X & A & Ip)]; destruct (parent_ok h' m' t' R' i' (in_ids h' m' t' R' _ _ G')) as [(Ei' & X')|(p' & Np' & X' & A' & Ip')]; rewrite E in X; rewrite E' in X'; injection X as ->; injection X' as ->; cbn [twins].
  - exact Logic.I.
  - destruct (id_data h' m' t' R' p' Ip') as (g & _ & Gg). assert (Q : parent_named h m s (f_name g)) by (apply Pn; exists i', p'; auto). destruct Q as (i0 & q & G0 & _ & B). assert (i0 = i) as -> by congruence. rewrite Ei in B. destruct (no_parent_top h m t R q B).
  - destruct (id_data h m t R p Ip) as (g & _ & Gg). assert (Q : parent_named h' m' s (f_name g)) by (apply Pn; exists i, p; auto). destruct Q as (i0 & q & G0 & _ & B). assert (i0 = i') as -> by congruence. rewrite Ei' in B. destruct (no_parent_top h' m' t' R' q B).
  - destruct (id_data h m t R p Ip) as (g & _ & Gg). assert (Q : parent_named h' m' s (f_name g)) by (apply Pn; exists i, p; auto). destruct Q as (i0 & q & G0 & Gq & B). assert (i0 = i') as -> by congruence. pose proof (feature_above_unique h' i' q B p' A') as ->. exists (f_name g). auto.
Qed.
Lemma twin_trace k : forall k' n n' acc acc' l l', twins n n' -> Forall2 twin acc acc' -> trace k h n acc = Some l -> trace k' h' n' acc' = Some l' -> Forall2 twin l l'.
Proof.
  induction k as [|k IH]; intros k' n n' acc acc' l l' N A E E'; [discriminate|]. destruct k' as [|k']; [discriminate|]. cbn [trace] in E, E'. destruct n as [i|], n' as [i'|]; cbn [twins] in N; try contradiction.
  - destruct (parent_feature h i) as [o|] eqn:P; [|discriminate]. destruct (parent_feature h' i') as [o'|] eqn:P'; [|discriminate]. cbn [bind] in E, E'.
    refine (IH k' o o' (i :: acc) (i' :: acc') l l' (twin_parent i i' o o' N P P') _ E E'). constructor; assumption.
  - congruence.
Qed.
Lemma twin_skip a : forall a' b b', Forall2 twin a a' -> Forall2 twin b b' -> Forall2 twin (fst (skip_common a b)) (fst (skip_common a' b')) /\ Forall2 twin (snd (skip_common a b)) (snd (skip_common a' b')).
Proof.
  induction a as [|x a IH]; intros a' b b' A B; inversion A as [|? x' ? a1 Tx A1]; subst; [cbn [skip_common]; auto|]. inversion B as [|y y' b0 b1 Ty B1]; subst; [cbn [skip_common]; auto|].
  cbn [skip_common]. rewrite <- (twin_same x x' y y' Tx Ty). destruct (Nat.eqb x y); [exact (IH a1 b0 b1 A1 B1)|cbn [fst snd]; auto].
Qed.
Lemma twin_lower i i' : twin i i' -> lower_at h i = lower_at h' i'.
Proof. intros X. destruct (twin_name i i' X) as (s & E & E' & _). unfold lower_at. rewrite E, E'. reflexivity. Qed.
Lemma twin_less a a' b b' : twin a a' -> twin b b' -> feature_less h a b = feature_less h' a' b'.
Proof.
  intros A B. assert (Ex : forall i i', twin i i' -> exists l l', trace (S (S (h_next h))) h (Some i) [] = Some l /\ trace (S (S (h_next h'))) h' (Some i') [] = Some l' /\ Forall2 twin l l').
  { intros i i' X. pose proof X as (s & G & G'). destruct (fpath_exists t i (rep_top_feature h m t R) (in_ids h m t R _ _ G)) as (l & P). destruct (fpath_exists t' i' (rep_top_feature h' m' t' R') (in_ids h' m' t' R' _ _ G')) as (l' & P').
    pose proof (trace_tree h t l i (rep_ok _ _ _ R) (rep_holds _ _ _ R) (rep_ids _ _ _ R) (rep_top_feature h m t R) P) as E. pose proof (trace_tree h' t' l' i' (rep_ok _ _ _ R') (rep_holds _ _ _ R') (rep_ids _ _ _ R') (rep_top_feature h' m' t' R') P') as E'.
    exists l, l'. split; [exact E|]. split; [exact E'|]. exact (twin_trace _ _ (Some i) (Some i') [] [] l l' X (Forall2_nil _) E E'). }
  destruct (Ex a a' A) as (la & la' & Ea & Ea' & Fa). destruct (Ex b b' B) as (lb & lb' & Eb & Eb' & Fb). unfold feature_less. rewrite Ea, Eb, Ea', Eb'. cbn [bind].
  destruct Fa as [|x x' la la' Tx Fa]; [reflexivity|]. destruct Fb as [|y y' lb lb' Ty Fb]; [reflexivity|]. rewrite <- (twin_same x x' y y' Tx Ty). destruct (negb (Nat.eqb x y)); [rewrite (twin_lower a a' A), (twin_lower b b' B); reflexivity|].
  destruct (twin_skip (x :: la) (x' :: la') (y :: lb) (y' :: lb')) as (F1 & F2); [constructor; assumption|constructor; assumption|]. destruct (skip_common (x :: la) (y :: lb)) as (r1, r2), (skip_common (x' :: la') (y' :: lb')) as (r1', r2'). cbn [fst snd] in F1, F2.
  destruct F1 as [|p p' r1 r1' Tp F1]; [destruct F2; reflexivity|]. destruct F2 as [|q q' r2 r2' Tq F2]; [reflexivity|]. rewrite (twin_lower p p' Tp), (twin_lower q q' Tq). reflexivity.
Qed.
Lemma less_same s u : less_named h m s u <-> less_named h' m' s u.
Proof.
  split; intros (i & j & Gi & Gj & L).
  - destruct (proj1 (Nm s)) as (i' & Gi'); [eauto|]. destruct (proj1 (Nm u)) as (j' & Gj'); [eauto|]. exists i', j'. split; [exact Gi'|]. split; [exact Gj'|]. rewrite <- (twin_less i i' j j'); [exact L|exists s; auto|exists u; auto].
  - destruct (proj2 (Nm s)) as (i' & Gi'); [eauto|]. destruct (proj2 (Nm u)) as (j' & Gj'); [eauto|]. exists i', j'. split; [exact Gi'|]. split; [exact Gj'|]. rewrite (twin_less i' i j' j); [exact L|exists s; auto|exists u; auto].
Qed.
Hypothesis D : siblings_differ h m.
Lemma differ_other : siblings_differ h' m'.
Proof. intros s u p A B. apply D with (p := p); apply Pn; assumption. Qed.
Lemma sorted_same ns ns' : Permutation ns ns' -> StronglySorted (fun s u => s = u \/ less_named h m s u) ns -> StronglySorted (fun s u => s = u \/ less_named h' m' s u) ns' -> ns = ns'.
Proof.
  intros P S1 S2. apply (sorted_equal (less_named h m) ns (less_asym h m t R D) ns' P S1). refine (sorted_map _ _ eq _ _ _ _ S2); [|clear; induction ns'; constructor; auto].
  intros a b x y <- <- [->|L]; [left; reflexivity|right; apply less_same; exact L].
Qed.
Lemma names_nodup (h0 : heap) (m0 : fmodel) (l : list nid) ns : Forall2 (fun j n => get_feature m0 n = Some j) l ns -> NoDup l -> NoDup ns.
Proof.
  intros F. induction F as [|j n l ns Gj F IH]; intros N; [constructor|]. inversion N as [|? ? Nj Ne']; subst. constructor; [|exact (IH Ne')].
  intros X. apply Nj. clear - F X Gj. induction F as [|k n' l ns Gk F IH]; [destruct X|]. destruct X as [->|X]; [left; congruence|right; exact (IH X)].
Qed.
End Two.

(** ** One option *)
Section Option.
Variable ord : list nid -> list nid.
Hypothesis ord_ok : is_order ord.
Variables (h : heap) (m : fmodel) (t : tree).
Hypothesis R : represents h m t.
Hypothesis Rg : registered h m.
Hypothesis En : enrolled h m.
Hypothesis Rs : all_resolved m.
Hypothesis W : writable h m.
Hypothesis D : siblings_differ h m.

Lemma ref_spelled s i : get_feature m s = Some i -> spelled h (CFeat (Ref i)) (CFeat (U s)).
Proof. intros G. destruct (names_data h m t R s i G) as (f & F & N). constructor. exists f. rewrite T_U. auto. Qed.
Lemma pair_stated o a b i j : get_feature m (T a) = Some i -> get_feature m (T b) = Some j -> (states_pair o m i j <-> stated h (all_constraints m) (CBin o (CFeat a) (CFeat b))).
Proof.
  intros Ga Gb. split.
  - intros (c & I & E). exists c. split; [exact I|]. rewrite E. pose proof (ref_spelled _ _ Ga) as Sa. pose proof (ref_spelled _ _ Gb) as Sb. rewrite U_T in Sa, Sb. constructor; assumption.
  - intros (c & I & Sp). exact (pair_option h m t R Rs o a b i j c I Sp Ga Gb).
Qed.
Notation sorted_names := (StronglySorted (fun s u => s = u \/ less_named h m s u)).
Lemma option_summary i f : In i (feature_ids t) -> feature_at h i = Some f -> exists q cn im ex nu rs,
  write_feature ord h m i = Some (option_doc f q cn im ex nu rs) /\ write_kind (f_kind f) = Some nu /\ map_option write_range (f_locations f) = Some rs /\
  (forall p, q = Some p <-> parent_named h m (f_name f) p) /\
  (NoDup cn /\ sorted_names cn /\ forall n, In n cn <-> parent_named h m n (f_name f)) /\
  (sorted_names im /\ forall n, (In n im -> exists j, get_feature m n = Some j) /\ exists k, times h (all_constraints m) (implying (U (f_name f)) (U n)) k /\ count_occ text_dec im n = (if text_eqb (f_name f) n then 2 else 1) * k) /\
  (NoDup ex /\ sorted_names ex /\ forall n, In n ex <-> excludes_named h m (U (f_name f)) (U n)).
Proof.
  intros I F. destruct (option_lists ord ord_ok h m t R En Rs W i f I F) as (q & cn & im & ex & nu & rs & A1 & A2 & A3 & A4 & A5 & A6 & A7 & (is & is' & Ri & Pm & Fm) & A9 & (cs & cs' & Cc & Nc & Ec & Fc) & (js & js' & Ci & Ei & Fi) & (ss & ss' & es & es' & Cs & Ce & Es & Ee & Fe)).
  destruct (id_data h m t R i I) as (f0 & F0 & G). assert (f0 = f) as -> by congruence. clear F0.
  exists q, cn, im, ex, nu, rs. split; [exact A1|]. split; [exact A2|]. split; [exact A3|]. split; [exact A4|]. split; [|split].
  - destruct (insert_all_sorted h m t R D cs cs' cn Cc Ec Fc) as (Pc & Sc). split; [|split; [exact Sc|exact A5]]. exact (names_nodup h m cs' cn Fc (Permutation_NoDup (Permutation_sym Pc) Nc)).
  - destruct (insert_all_sorted h m t R D js js' im Ci Ei Fi) as (_ & Si). split; [exact Si|]. intros n. assert (K : In n im -> exists j, get_feature m n = Some j).
    { clear - Fi. induction Fi as [|k u l us Gk Fi IH]; intros []; [subst; eauto|auto]. }
    split; [exact K|]. destruct (get_feature m n) as [j|] eqn:Gj.
    + exists (List.length (filter (target i j) (all_constraints m))). split; [apply (times_target h m t R Rs); rewrite T_U; assumption|].
      assert (Q : Nat.eqb i j = text_eqb (f_name f) n).
      { destruct (text_eqb (f_name f) n) eqn:E; [apply text_eqb_eq in E; apply Nat.eqb_eq; congruence|]. apply Nat.eqb_neq. intros ->. rewrite (same_name h m t R (f_name f) n j G Gj) in E. apply text_eqb_neq in E. apply E. reflexivity. }
      rewrite <- Q, <- (sides_count h m t R En Rs (rg_informed _ _ Rg) i f j is G F (ex_intro _ n Gj) Ri), <- (proj1 (Permutation_count_occ Nat.eq_dec is' is) Pm j).
      clear - Fm Gj R. induction Fm as [|k u l us Gk Fm IH]; [reflexivity|]. cbn [count_occ]. rewrite IH. destruct (text_dec u n) as [->|N].
      * destruct (Nat.eq_dec k j) as [_|N]; [reflexivity|congruence].
      * destruct (Nat.eq_dec k j) as [->|_]; [|reflexivity]. destruct N. exact (same_name h m t R u n j Gk Gj).
    + exists 0. split; [apply (times_unknown h m t R Rs); rewrite !T_U; intros a b _ X; congruence|]. rewrite Nat.mul_0_r. apply count_occ_not_In. intros X. destruct (K X) as (j & X'). congruence.
  - split; [exact A9|]. split; [exact (insert_new_sorted h m t R D ss ss' es es' ex Cs Ce Es Ee Fe)|]. intros n. rewrite A7. unfold says, excludes_named. rewrite !T_U. split.
    + intros (j & Gj & [X|(_ & N & X)]); [left|right; exists i, j; auto]. apply (pair_stated BExcludes (U (f_name f)) (U n) i j) in X; [exact X| |]; rewrite T_U; assumption.
    + intros [X|(i' & j & Gi & Gj & N & X)]; [|assert (i' = i) as -> by congruence; exists j; auto 6]. destruct X as (c & Ic & Sp). assert (exists j, get_feature m n = Some j) as (j & Gj).
      { destruct (spelled_leaves h _ _ Sp (U n)) as (r & Ir & Cr); [cbn; auto|]. destruct (Rs c r Ic Ir) as (u & z & -> & Gz). destruct Cr as (g & Fg & Ng). rewrite (name_unique h m t R z u g Gz Fg), T_U in Ng. subst u. eauto. }
      exists j. split; [exact Gj|]. left. apply (pair_stated BExcludes (U (f_name f)) (U n) i j); [rewrite T_U; exact G|rewrite T_U; exact Gj|]. exists c. auto.
Qed.
End Option.

(** ** Two documents *)
Lemma narrow_same v w : as_int32 v w -> narrow v = narrow w.
Proof. intros (B & k & ->). unfold narrow. f_equal. replace (w + k * 2 ^ 32 + 2 ^ 31)%Z with (w + 2 ^ 31 + k * 2 ^ 32)%Z by ring. apply Z.mod_add. discriminate. Qed.
Lemma values_same a : forall b v, Forall2 as_int32 a b -> write_values (a ++ [v]) = write_values (b ++ [v]).
Proof.
  induction a as [|x a IH]; intros b v F; inversion F as [|? y ? b' X F']; subst; [reflexivity|]. specialize (IH b' v F').
  assert (Ne : forall z (l : list Z), write_values (z :: l ++ [v]) = let* t := write_values (l ++ [v]) in Some (print_Z (narrow z) ++ T ";" ++ t)) by (intros z l; destruct l; reflexivity).
  cbn [app]. rewrite !Ne, IH, (narrow_same x y X). reflexivity.
Qed.
Lemma kind_same f g : same_saved f g -> write_kind (f_kind f) = write_kind (f_kind g) /\ is_binary_option (f_kind f) = is_binary_option (f_kind g) /\ is_numeric_option (f_kind f) = is_numeric_option (f_kind g).
Proof.
  intros [(_ & E & _)|[((_ & _ & K & _) & _)|((_ & _ & K) & _)]]; [rewrite E; auto| |destruct (f_kind f); destruct K as (-> & _); auto]. destruct (f_kind f) as [|[lo hi|vs] st| |]; cbn [kind_back] in K; try (rewrite K; auto; fail). destruct K as (ws & -> & a & b & v & -> & -> & F). cbn [write_kind]. rewrite (values_same a b v F). auto.
Qed.
Lemma ranges_back l : map_option write_range (map place_back l) = map_option write_range l.
Proof. induction l as [|r l IH]; [reflexivity|]. cbn [map map_option]. rewrite IH. reflexivity. Qed.
Lemma data_same f g : same_saved f g -> map_option write_range (f_locations f) = map_option write_range (f_locations g) /\ f_optional f = f_optional g.
Proof.
  intros [(_ & _ & O & L & _)|[((_ & _ & K & B) & Rt)|((_ & _ & K) & Rt)]]; [rewrite O, L; auto| |destruct (f_kind f); destruct K as (_ & -> & ->); auto; destruct Rt as (-> & ->); auto]. destruct (f_kind f) eqn:E; try (destruct B as (-> & ->); rewrite ranges_back; auto; fail). destruct B as (-> & ->). destruct (Rt eq_refl) as (-> & ->). auto.
Qed.
Lemma printed_same (c : cexpr string) : to_string (fun s => s) (excludes_as_implies c) = to_string (fun s => s) c.
Proof.
  induction c as [o l IHl r IHr|o e IH|n|f]; cbn [excludes_as_implies to_string]; [|rewrite IH; reflexivity|reflexivity|reflexivity].
  destruct o; cbn [to_string]; rewrite IHl, IHr; try reflexivity.
Qed.
Lemma text_same h h' c c' : same_print h h' c c' -> constraint_text h c = constraint_text h' c'.
Proof.
  unfold constraint_text. intros [(e & S1 & S2)|(e & S1 & S2)]; rewrite (spelled_spell _ _ _ S1), (spelled_spell _ _ _ S2); cbn [bind]; [reflexivity|]. rewrite printed_same. reflexivity.
Qed.
Lemma map_option_two {A B C} (f : A -> option C) (g : B -> option C) (P : A -> B -> Prop) l l' : (forall a b, P a b -> f a = g b) -> Forall2 P l l' -> map_option f l = map_option g l'.
Proof. intros H F. induction F as [|a b l l' X F IH]; [reflexivity|]. cbn [map_option]. rewrite (H a b X), IH. reflexivity. Qed.
Lemma forall2_empty {A B} (P : A -> B -> Prop) l l' : Forall2 P l l' -> (l = [] <-> l' = []).
Proof. intros F. destruct F; [tauto|split; discriminate]. Qed.
Lemma section_same {A B} s (f : A -> option xml) (g : B -> option xml) (P : A -> B -> Prop) all all' l l' : (all = [] <-> all' = []) -> (forall a b, P a b -> f a = g b) -> Forall2 P l l' -> write_section s f all l = write_section s g all' l'.
Proof.
  intros E H F. unfold write_section. rewrite (map_option_two f g P l l' H F). destruct all, all'; [reflexivity|destruct E as (E & _); discriminate (E eq_refl)|destruct E as (_ & E); discriminate (E eq_refl)|reflexivity].
Qed.

Section Documents.
Variables ord ord' : list nid -> list nid.
Hypothesis ord_ok : is_order ord.
Hypothesis ord_ok' : is_order ord'.
Variables (h : heap) (m : fmodel) (t : tree) (h' : heap) (m' : fmodel) (t' : tree).
Hypothesis R : represents h m t.
Hypothesis Rg : registered h m.
Hypothesis En : enrolled h m.
Hypothesis Rs : all_resolved m.
Hypothesis W : writable h m.
Hypothesis R' : represents h' m' t'.
Hypothesis Rg' : registered h' m'.
Hypothesis En' : enrolled h' m'.
Hypothesis Rs' : all_resolved m'.
Hypothesis W' : writable h' m'.
Hypothesis D : siblings_differ h m.
Hypothesis L : looks_same h m h' m'.
Notation same := (sorted_same h m t h' m' t' R R' (ls_names _ _ _ _ L) (ls_parents _ _ _ _ L) D).
Lemma D' : siblings_differ h' m'.
Proof. exact (differ_other h m h' m' (ls_parents _ _ _ _ L) D). Qed.

Lemma option_same i i' : twin m m' i i' -> write_feature ord h m i = write_feature ord' h' m' i'.
Proof.
  intros (s & G & G'). destruct (names_data h m t R s i G) as (f & F & Nf). destruct (names_data h' m' t' R' s i' G') as (g & F' & Ng). pose proof (ls_features _ _ _ _ L s i i' f g G G' F F') as Sv.
  destruct (option_summary ord ord_ok h m t R Rg En Rs W D i f (in_ids h m t R _ _ G) F) as (q & cn & im & ex & nu & rs & E & Ek & Er & Q & (Nc & Sc & Ic) & (Si & Ii) & (Nx & Sx & Ix)).
  destruct (option_summary ord' ord_ok' h' m' t' R' Rg' En' Rs' W' D' i' g (in_ids h' m' t' R' _ _ G') F') as (q' & cn' & im' & ex' & nu' & rs' & E' & Ek' & Er' & Q' & (Nc' & Sc' & Ic') & (Si' & Ii') & (Nx' & Sx' & Ix')).
  rewrite E, E'. f_equal. rewrite Nf in *. rewrite Ng in *.
  assert (q = q') as <-.
  { destruct q as [p|], q' as [p'|]; [|pose proof (proj1 (Q p) eq_refl) as X; apply (ls_parents _ _ _ _ L), Q' in X; discriminate|pose proof (proj1 (Q' p') eq_refl) as X; apply (ls_parents _ _ _ _ L), Q in X; discriminate|reflexivity].
    pose proof (proj1 (Q p) eq_refl) as X. apply (ls_parents _ _ _ _ L), Q' in X. congruence. }
  assert (cn = cn') as <-.
  { apply same; auto. apply NoDup_Permutation; auto. intros n. rewrite Ic, Ic'. symmetry. apply (ls_parents _ _ _ _ L). }
  assert (im = im') as <-.
  { apply same; auto. apply (Permutation_count_occ text_dec). intros n. destruct (proj2 (Ii n)) as (k & Tk & ->). destruct (proj2 (Ii' n)) as (k' & Tk' & ->). apply (ls_implies _ _ _ _ L) in Tk. rewrite (times_unique _ _ _ _ Tk _ Tk'). reflexivity. }
  assert (ex = ex') as <-.
  { apply same; auto. apply NoDup_Permutation; auto. intros n. rewrite Ix, Ix'. apply (ls_excludes _ _ _ _ L). }
  pose proof (proj1 (kind_same f g Sv)) as Kk. rewrite Ek, Ek' in Kk. injection Kk as <-. destruct (data_same f g Sv) as (Dr & Do). rewrite Er, Er' in Dr. injection Dr as <-.
  unfold option_doc, flag. rewrite Nf, Ng, Do. reflexivity.
Qed.
Lemma features_same p s : (forall f g, same_saved f g -> p (f_kind f) = p (f_kind g)) -> write_features ord h m p s = write_features ord' h' m' p s.
Proof.
  intros Hp. unfold write_features.
  assert (It : forall ord h m t, is_order ord -> represents h m t -> exists l ns, iterate ord (S (h_next h)) h (m_root m) = Some l /\ Forall2 (fun j n => get_feature m n = Some j) l ns /\ NoDup ns /\ forall n, In n ns <-> exists i, get_feature m n = Some i).
  { clear. intros ord h m t Oo R. destruct (iterate_features ord h t Oo (rep_ok _ _ _ R) (rep_holds _ _ _ R) (rep_ids _ _ _ R) (rep_top_feature h m t R)) as (l & El & _ & Pl & Nl). exists l.
    assert (exists ns, Forall2 (fun j n => get_feature m n = Some j) l ns) as (ns & F).
    { assert (X : forall j, In j l -> exists n, get_feature m n = Some j) by (intros j J; apply (in_features h m t R); exact (Permutation_in _ Pl J)). clear - X. induction l as [|j l IH]; [exists []; constructor|]. destruct (X j (or_introl eq_refl)) as (n & G). destruct IH as (ns & F); [intros k K; apply X; right; exact K|]. exists (n :: ns). constructor; assumption. }
    exists ns. split; [rewrite (rep_root _ _ _ R); apply El; lia|]. split; [exact F|]. split; [exact (names_nodup h m l ns F Nl)|]. intros n. split.
    - intros I. destruct (XmlDetectFinal.forall2_right _ _ _ F n I) as (j & _ & G). eauto.
    - intros (i & G). assert (I : In i l) by (apply (Permutation_in _ (Permutation_sym Pl)), (in_ids h m t R _ _ G)). destruct (XmlDetectFinal.forall2_left _ _ _ F i I) as (n' & In' & G'). rewrite (same_name h m t R n n' i G G'). exact In'. }
  destruct (It ord h m t ord_ok R) as (l & ns & E & F & N & I). destruct (It ord' h' m' t' ord_ok' R') as (l' & ns' & E' & F' & N' & I'). rewrite E, E'. cbn [bind].
  assert (ns = ns') as <-.
  { apply same; [|exact (iterate_sorted h m t R D ord l ns ord_ok E F)|exact (iterate_sorted h' m' t' R' D' ord' l' ns' ord_ok' E' F')]. apply NoDup_Permutation; auto. intros n. rewrite I, I'. apply (ls_names _ _ _ _ L). }
  assert (Tw : Forall2 (twin m m') l l').
  { clear - F F'. revert l' F'. induction F as [|j n l ns G F IH]; intros l' F'; inversion F' as [|j' ? l1 ? G' F1]; subst; constructor; [exists n; auto|exact (IH l1 F1)]. }
  erewrite (map_option_two _ _ (twin m m') l l'); [reflexivity| |exact Tw]. intros i i' X. cbn beta. pose proof X as (u & G & G'). destruct (names_data h m t R u i G) as (f & Fi & _). destruct (names_data h' m' t' R' u i' G') as (g & Fi' & _). rewrite Fi, Fi'. cbn [bind].
  rewrite (Hp f g (ls_features _ _ _ _ L u i i' f g G G' Fi Fi')), (option_same i i' X). reflexivity.
Qed.
Theorem documents_same : write_xml ord h m = write_xml ord' h' m'.
Proof.
  unfold write_xml. rewrite (features_same is_binary_option "binaryOptions") by (intros f g X; apply (kind_same f g X)). rewrite (features_same is_numeric_option "numericOptions") by (intros f g X; apply (kind_same f g X)).
  rewrite (ls_name _ _ _ _ L), (ls_path _ _ _ _ L), (ls_commit _ _ _ _ L).
  assert (Hp : forall c c', same_print h h' c c' -> write_plain h c = write_plain h' c') by (intros c c' X; unfold write_plain; rewrite (text_same h h' c c' X); reflexivity).
  assert (Un : forall l, unpaired l (filter (fun c => negb (is_pair (c_expr c))) l)).
  { induction l as [|c l IH]; [constructor|]. cbn [filter]. destruct (is_pair (c_expr c)) eqn:E; cbn [negb]; [apply unpaired_pair; [apply is_pair_iff; exact E|exact IH]|]. apply unpaired_other; [intros P; apply is_pair_iff in P; congruence|exact IH]. }
  rewrite (section_same "booleanConstraints" (write_plain h) (write_plain h') (same_print h h') _ _ _ _ (ls_empty _ _ _ _ L) Hp (ls_boolean _ _ _ _ L _ _ (Un _) (Un _))).
  rewrite (section_same "nonBooleanConstraints" (write_plain h) (write_plain h') (same_print h h') _ _ _ _ (forall2_empty _ _ _ (ls_nonboolean _ _ _ _ L)) Hp (ls_nonboolean _ _ _ _ L)).
  assert (Hx : forall x x', same_print h h' (x_con x) (x_con x') /\ x_req x' = x_req x /\ x_kind x' = x_kind x -> write_mixed h x = write_mixed h' x') by (intros x x' (X & Q1 & Q2); unfold write_mixed; rewrite (text_same h h' _ _ X), Q1, Q2; reflexivity).
  rewrite (section_same "mixedConstraints" (write_mixed h) (write_mixed h') _ _ _ _ _ (forall2_empty _ _ _ (ls_mixed _ _ _ _ L)) Hx (ls_mixed _ _ _ _ L)).
  reflexivity.
Qed.
End Documents.
