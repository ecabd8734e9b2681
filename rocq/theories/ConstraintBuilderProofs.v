(** The builder refines the precedence machine. *)
From Coq Require Import List String ZArith Arith Bool Lia Permutation.
From Verif Require Import ConstraintModel ConstraintSpec ConstraintMachine
  ConstraintBuilderModel ConstraintBuilderSpec.
Import ListNotations.

Lemma call_prec_level o : call_prec o = level o.
Proof. destruct o; reflexivity. Qed.

(** ** Trees and paths in the slots, with their footprints *)

Inductive tree (m : slots) : nat -> cexpr (option string) -> list nat -> Prop :=
| tr_num k n : m k = Some (BNum n) -> tree m k (CInt n) [k]
| tr_name k s : m k = Some (BName s) -> tree m k (CFeat s) [k]
| tr_un k o j c fp : m k = Some (BUn o j) -> tree m j c fp -> tree m k (CUn o c) (k :: fp)
| tr_bin k o l r cl cr fl fr : m k = Some (BBin o l r) -> tree m l cl fl -> tree m r cr fr ->
    tree m k (CBin o cl cr) (k :: fl ++ fr).

Inductive path (m : slots) : list frame -> list (nat * nat) -> nat -> list nat -> Prop :=
| pa_nil : path m [] [] 0 []
| pa_un o st fs k j fp : path m st fs k fp -> m k = Some (BUn o j) ->
    path m (FUn o :: st) ((0, k) :: fs) j (k :: fp)
| pa_bin o c st fs k l r fl fp : path m st fs k fp -> m k = Some (BBin o l r) ->
    tree m l (map_leaves Some c) fl ->
    path m (FBin o c :: st) ((level o, k) :: fs) r (k :: fl ++ fp)
| pa_par st fs k fp : path m st fs k fp -> path m (FPar :: st) ((9, k) :: fs) k fp.

Lemma tree_frame m m' k c fp : tree m k c fp -> (forall j, In j fp -> m' j = m j) -> tree m' k c fp.
Proof.
  induction 1 as [k n E|k s E|k o j c fp E _ IH|k o l r cl cr fl fr E _ IHl _ IHr]; intros H.
  - apply tr_num. rewrite H; simpl; auto.
  - apply tr_name. rewrite H; simpl; auto.
  - eapply tr_un; [rewrite H; simpl; eauto|]. apply IH. intros; apply H; simpl; auto.
  - eapply tr_bin; [rewrite H; simpl; eauto| |].
    + apply IHl. intros; apply H; simpl; right; apply in_or_app; auto.
    + apply IHr. intros; apply H; simpl; right; apply in_or_app; auto.
Qed.

Lemma path_frame m m' st fs h fp : path m st fs h fp -> (forall j, In j fp -> m' j = m j) ->
  path m' st fs h fp.
Proof.
  induction 1 as [|o st fs k j fp _ IH E|o c st fs k l r fl fp _ IH E Tl|st fs k fp _ IH]; intros H.
  - constructor.
  - econstructor; [apply IH; intros; apply H; simpl; auto|]. rewrite H; simpl; auto.
  - econstructor.
    + apply IH; intros; apply H; simpl; right; apply in_or_app; auto.
    + rewrite H; simpl; eauto.
    + eapply tree_frame; eauto. intros; apply H; simpl; right; apply in_or_app; auto.
  - constructor. apply IH; auto.
Qed.

Lemma tree_head m k c fp : tree m k c fp -> In k fp.
Proof. destruct 1; simpl; auto. Qed.

Lemma tree_filled m k c fp : tree m k c fp -> filled m k = true.
Proof. unfold filled. destruct 1 as [? ? E|? ? E|? ? ? ? ? E|? ? ? ? ? ? ? ? E]; rewrite E; auto. Qed.

(** ** The abstract call *)

Definition astep (s : mstate) (k : bcall) : mstate :=
  match k with
  | KSym a => mstep s a
  | KPar => match mresult s with Some c => Done [] c | None => Err end
  end.
Definition arun (ks : list bcall) (s : mstate) : mstate := fold_left astep ks s.

Definition below (n : nat) (fp : list nat) : Prop := Forall (fun j => j < n) fp.

Definition rel (b : bstate) (s : mstate) : Prop :=
  match s with
  | Hole st => exists h fp, b_head b = Some h /\ b_slots b h = None /\
      path (b_slots b) st (b_frames b) h fp /\ NoDup (h :: fp) /\ below (b_next b) (h :: fp)
  | Done st t => exists h fs fp ft, b_head b = Some h /\
      path (b_slots b) st fs h fp /\ tree (b_slots b) h (map_leaves Some t) ft /\
      NoDup (ft ++ fp) /\ below (b_next b) (ft ++ fp) /\
      (b_frames b = fs \/ b_frames b = (0, h) :: fs)
  | Err => b_head b = None
  end.

(** Popping frames folds the path into a tree. *)
Lemma NoDup_cons_mid {A} (k : A) ft fp : NoDup (ft ++ k :: fp) -> NoDup ((k :: ft) ++ fp).
Proof.
  intros H. simpl. constructor.
  - apply NoDup_remove_2 in H. auto.
  - apply NoDup_remove_1 in H. auto.
Qed.

Lemma below_perm n (k : nat) ft fp : below n (ft ++ k :: fp) -> below n ((k :: ft) ++ fp).
Proof.
  unfold below. rewrite !Forall_app. intros [A B]. inversion B; subst. split; auto.
Qed.

Lemma perm_bin (k : nat) fl ft fp :
  Permutation (ft ++ k :: fl ++ fp) ((k :: fl ++ ft) ++ fp).
Proof.
  simpl. rewrite <- Permutation_middle. constructor.
  rewrite !app_assoc. apply Permutation_app_tail. apply Permutation_app_comm.
Qed.

Lemma below_Permutation n a b : Permutation a b -> below n a -> below n b.
Proof. unfold below. intros P. rewrite !Forall_forall. intros H x Hx. apply H.
  eapply Permutation_in; [apply Permutation_sym|]; eauto. Qed.

Lemma pop_reduce m n p : p <= 8 -> forall st fs h fp t ft st' t',
  path m st fs h fp -> tree m h (map_leaves Some t) ft -> NoDup (ft ++ fp) -> below n (ft ++ fp) ->
  reduce p st t = (st', t') ->
  exists h' fs' fp' ft', pop_upto p h fs = (h', fs') /\ path m st' fs' h' fp' /\
    tree m h' (map_leaves Some t') ft' /\ NoDup (ft' ++ fp') /\ below n (ft' ++ fp').
Proof.
  intros P st fs h fp t ft st' t' H. revert t ft.
  induction H as [|o st fs k j fp Hp IH E|o c st fs k l r fl fp Hp IH E Tl|st fs k fp Hp IH];
    intros t ft Ht ND B R.
  - injection R as <- <-. exists 0, [], [], ft. repeat split; auto; constructor.
  - simpl in R. destruct (IH (CUn o t) (k :: ft)) as (h' & fs' & fp' & ft' & A1 & A2 & A3 & A4 & A5); auto.
    + simpl. eapply tr_un; eauto.
    + apply NoDup_cons_mid; auto.
    + apply below_perm; auto.
    + exists h', fs', fp', ft'. simpl. auto.
  - simpl in R. destruct (level o <=? p) eqn:L.
    + destruct (IH (CBin o c t) (k :: fl ++ ft)) as (h' & fs' & fp' & ft' & A1 & A2 & A3 & A4 & A5); auto.
      * simpl. eapply tr_bin; eauto.
      * eapply Permutation_NoDup; [apply perm_bin|auto].
      * eapply below_Permutation; [apply perm_bin|auto].
      * exists h', fs', fp', ft'. simpl. rewrite L. auto.
    + injection R as <- <-. exists r, ((level o, k) :: fs), (k :: fl ++ fp), ft. simpl. rewrite L.
      split; [auto|]. split; [econstructor; eauto|]. auto.
  - simpl in R. injection R as <- <-. exists k, ((9, k) :: fs), fp, ft.
    assert (L : (9 <=? p) = false) by (apply Nat.leb_gt; lia).
    unfold pop_upto. rewrite L. split; [auto|]. split; [constructor; auto|]. auto.
Qed.

Lemma pop_open_upto fs : forall h, Forall (fun f => fst f <= 9) fs -> pop_open fs = snd (pop_upto 8 h fs).
Proof.
  induction fs as [|[q k] fs IH]; intros h F; simpl; auto.
  inversion F; subst. simpl in *. unfold max_prec.
  destruct (q <=? 8) eqn:E.
  - replace (q <? 9) with true by (symmetry; apply Nat.ltb_lt; apply Nat.leb_le in E; lia). auto.
  - replace (q <? 9) with false by (symmetry; apply Nat.ltb_ge; apply Nat.leb_gt in E; lia). auto.
Qed.

Lemma path_prec m st fs h fp : path m st fs h fp -> Forall (fun f => fst f <= 9) fs.
Proof.
  induction 1; constructor; simpl; auto; try lia.
  pose proof (level_le_8 o); lia.
Qed.

(** Popping from the frames of a state with a completed operand. *)
Lemma done_pop p b st t st' t' : p <= 8 -> rel b (Done st t) -> reduce p st t = (st', t') ->
  exists h0 h' fs' fp' ft', b_head b = Some h0 /\ filled (b_slots b) h0 = true /\
    pop_upto p h0 (b_frames b) = (h', fs') /\
    path (b_slots b) st' fs' h' fp' /\ tree (b_slots b) h' (map_leaves Some t') ft' /\
    NoDup (ft' ++ fp') /\ below (b_next b) (ft' ++ fp').
Proof.
  intros P (h & fs & fp & ft & E1 & E2 & E3 & E4 & E5 & E6) R.
  destruct (pop_reduce _ (b_next b) p P _ _ _ _ _ _ _ _ E2 E3 E4 E5 R)
    as (h' & fs' & fp' & ft' & A1 & A2 & A3 & A4 & A5).
  exists h, h', fs', fp', ft'. split; [auto|]. split; [eapply tree_filled; eauto|].
  split; [|auto]. destruct E6 as [-> | ->]; auto.
Qed.

Lemma frames_prec b st t : rel b (Done st t) -> Forall (fun f => fst f <= 9) (b_frames b).
Proof.
  intros (h & fs & fp & ft & E1 & E2 & E3 & E4 & E5 & E6). apply path_prec in E2.
  destruct E6 as [-> | ->]; auto. constructor; auto. simpl; lia.
Qed.

Lemma set_same m k v : set_slot m k v k = v.
Proof. unfold set_slot. rewrite Nat.eqb_refl. auto. Qed.
Lemma set_other m k v j : j <> k -> set_slot m k v j = m j.
Proof. unfold set_slot. intros H. apply Nat.eqb_neq in H. rewrite H. auto. Qed.

Lemma path_filled_nil m fs h fp : path m [] fs h fp -> fs = [] /\ h = 0 /\ fp = [].
Proof. inversion 1; auto. Qed.

Lemma put_leaf_rel b s n c : rel b s ->
  (forall m k, m k = Some n -> tree m k (map_leaves Some c) [k]) ->
  exists b', put_leaf n b = BOk b' /\
    rel b' (match s with Hole st => Done st c | _ => Err end).
Proof.
  intros R Hn. unfold put_leaf. destruct s as [st|st t|].
  - destruct R as (h & fp & E1 & E2 & E3 & E4 & E5). rewrite E1. unfold filled. rewrite E2.
    eexists. split; [reflexivity|]. inversion E4 as [|? ? NI ND]; subst.
    exists h, (b_frames b), fp, [h]. simpl.
    split; [auto|]. split; [eapply path_frame; eauto|].
    + intros j Hj. apply set_other. intros ->; auto.
    + split; [apply Hn, set_same|]. auto.
  - destruct (reduce 8 st t) as [st' t'] eqn:Q.
    destruct (done_pop 8 _ _ _ _ _ (le_n 8) R Q) as (h0 & h' & fs' & fp' & ft' & A1 & A2 & _).
    rewrite A1, A2. eexists. split; [reflexivity|]. reflexivity.
  - simpl in R. rewrite R. eexists. split; reflexivity.
Qed.

Lemma below_up n n' l : n <= n' -> below n l -> below n' l.
Proof. unfold below. intros L. apply Forall_impl. intros; lia. Qed.

Lemma below_not n l : below n l -> ~ In n l.
Proof. unfold below. rewrite Forall_forall. intros H I. apply H in I. lia. Qed.

Lemma put_unary_rel b s o : rel b s ->
  exists b', put_unary o b = BOk b' /\ rel b' (match s with Hole st => Hole (FUn o :: st) | _ => Err end).
Proof.
  intros R. unfold put_unary. destruct s as [st|st t|].
  - destruct R as (h & fp & E1 & E2 & E3 & E4 & E5). rewrite E1. unfold filled. rewrite E2.
    eexists. split; [reflexivity|]. inversion E4 as [|? ? NI ND]; subst.
    pose proof (below_not _ _ E5) as BN. inversion E5 as [|? ? Bh Bf]; subst. simpl in BN.
    exists (b_next b), (h :: fp). simpl. split; [auto|]. split; [apply set_same|]. split.
    + constructor.
      * eapply path_frame; eauto. intros j Hj. rewrite !set_other; auto; intros ->; auto.
      * rewrite set_other by lia. apply set_same.
    + split; [constructor; [simpl; tauto|auto]|]. constructor; [lia|].
      eapply below_up; [|exact E5]. lia.
  - destruct (reduce 8 st t) as [st' t'] eqn:Q.
    destruct (done_pop 8 _ _ _ _ _ (le_n 8) R Q) as (h0 & h' & fs' & fp' & ft' & A1 & A2 & _).
    rewrite A1, A2. eexists. split; [reflexivity|]. reflexivity.
  - simpl in R. rewrite R. eexists. split; reflexivity.
Qed.

Lemma NoDup_app_parts {A} (a b : list A) : NoDup (a ++ b) ->
  NoDup a /\ NoDup b /\ forall x, In x a -> ~ In x b.
Proof.
  induction a as [|x a IH]; simpl; intros H.
  - repeat split; auto. constructor.
  - inversion H as [|? ? NI ND]; subst. destruct (IH ND) as (A1 & A2 & A3).
    repeat split; auto.
    + constructor; auto. intros I; apply NI, in_or_app; auto.
    + intros y [->|Hy]; auto. intros I; apply NI, in_or_app; auto.
Qed.

Lemma NoDup_app_join {A} (a b : list A) : NoDup a -> NoDup b -> (forall x, In x a -> ~ In x b) ->
  NoDup (a ++ b).
Proof.
  induction 1 as [|x a NI ND IH]; simpl; intros HB HD; auto.
  constructor; [|apply IH; auto; intros; apply HD; simpl; auto].
  intros I. apply in_app_or in I as [I|I]; auto. apply (HD x); simpl; auto.
Qed.

(** The slot of a tree can be renamed. *)
Lemma tree_move_nodup m k c fp : tree m k c fp -> NoDup fp -> forall m' l,
  m' l = m k -> (forall j, In j fp -> j <> k -> m' j = m j) -> ~ In l fp ->
  exists fp', tree m' l c (l :: fp') /\ NoDup (l :: fp') /\ forall j, In j fp' -> In j fp /\ j <> k.
Proof.
  intros H ND m' l E A NL. destruct H as [k n Ek|k s Ek|k o j c fp Ek Hj|k o l' r cl cr fl fr Ek Hl Hr].
  - exists []. split; [apply tr_num; congruence|]. split; [constructor; [auto|constructor]|simpl; tauto].
  - exists []. split; [apply tr_name; congruence|]. split; [constructor; [auto|constructor]|simpl; tauto].
  - inversion ND as [|? ? NI ND']; subst. exists fp. simpl in NL. split; [|split].
    + eapply tr_un; [rewrite E; exact Ek|]. eapply tree_frame; eauto.
      intros i Hi. apply A; simpl; auto. intros ->; auto.
    + constructor; auto.
    + intros i Hi. split; simpl; auto. intros ->; auto.
  - inversion ND as [|? ? NI ND']; subst. exists (fl ++ fr). simpl in NL. split; [|split].
    + eapply tr_bin; [rewrite E; exact Ek| |].
      * eapply tree_frame; eauto. intros i Hi. apply A; [simpl; right; apply in_or_app; auto|].
        intros ->; apply NI; apply in_or_app; auto.
      * eapply tree_frame; eauto. intros i Hi. apply A; [simpl; right; apply in_or_app; auto|].
        intros ->; apply NI; apply in_or_app; auto.
    + constructor; auto.
    + intros i Hi. split; simpl; auto. intros ->; auto.
Qed.

Lemma put_binary_rel b s o : rel b s ->
  exists b', put_binary o b = BOk b' /\ rel b' (mstep s (SInf o)).
Proof.
  intros R. unfold put_binary. destruct s as [st|st t|].
  - destruct R as (h & fp & E1 & E2 & E3 & E4 & E5). rewrite E1. unfold filled. rewrite E2.
    eexists. split; reflexivity.
  - rewrite call_prec_level. simpl. destruct (reduce (level o) st t) as [st' t'] eqn:Q.
    destruct (done_pop _ _ _ _ _ _ (level_le_8 o) R Q)
      as (h0 & h' & fs' & fp' & ft' & A1 & A2 & A3 & A4 & A5 & A6 & A7).
    rewrite A1, A2, A3. rewrite (tree_filled _ _ _ _ A5). simpl.
    eexists. split; [reflexivity|].
    set (n := b_next b) in *. set (m := b_slots b) in *.
    destruct (NoDup_app_parts _ _ A6) as (NDt & NDp & DJ).
    assert (BN : ~ In n (ft' ++ fp')) by (apply below_not; auto).
    assert (BN' : ~ In (S n) (ft' ++ fp')) by (apply below_not; eapply below_up; [|exact A7]; lia).
    assert (Ih : In h' ft') by (eapply tree_head; eauto).
    assert (Hh : h' < n).
    { unfold below in A7. rewrite Forall_forall in A7. apply A7. apply in_or_app; auto. }
    set (m' := set_slot (set_slot (set_slot m n (m h')) (S n) None) h' (Some (BBin o n (S n)))).
    assert (MO : forall j, j <> n -> j <> S n -> j <> h' -> m' j = m j)
      by (intros; unfold m'; rewrite !set_other; auto).
    destruct (tree_move_nodup _ _ _ _ A5 NDt m' n) as (fp2 & T2 & N2 & I2).
    + unfold m'. rewrite set_other, set_other, set_same by lia. auto.
    + intros j Hj Nj. apply MO; auto; intros ->; [apply BN|apply BN']; apply in_or_app; auto.
    + intros I. apply BN, in_or_app; auto.
    + exists (S n), (h' :: (n :: fp2) ++ fp'). simpl. split; [auto|].
      split; [unfold m'; rewrite set_other, set_same by lia; auto|].
      split.
      * change (h' :: n :: fp2 ++ fp') with (h' :: (n :: fp2) ++ fp').
        eapply pa_bin with (l := n).
        -- eapply path_frame; eauto. intros j Hj. apply MO; intros ->.
           ++ apply BN, in_or_app; auto.
           ++ apply BN', in_or_app; auto.
           ++ apply (DJ h'); auto.
        -- unfold m'. apply set_same.
        -- exact T2.
      * assert (ND3 : NoDup (h' :: (n :: fp2) ++ fp')).
        { constructor.
          - intros I. apply in_app_or in I as [[I|I]|I].
            + lia.
            + apply I2 in I. tauto.
            + apply (DJ h'); auto.
          - apply NoDup_app_join; auto. intros x [<-|Hx] I.
            + apply BN, in_or_app; auto.
            + apply I2 in Hx as [Hx _]. apply (DJ x); auto. }
        assert (B3 : below (S n) (h' :: (n :: fp2) ++ fp')).
        { unfold below in *. rewrite Forall_forall in *. intros x [<-|I]; [lia|].
          apply in_app_or in I as [[<-|I]|I]; [lia| |].
          - apply I2 in I as [I _]. specialize (A7 x). rewrite in_app_iff in A7. assert (x < n) by auto. lia.
          - specialize (A7 x). rewrite in_app_iff in A7. assert (x < n) by auto. lia. }
        split.
        -- constructor; [|exact ND3]. apply below_not. exact B3.
        -- constructor; [lia|]. eapply below_up; [|exact B3]. lia.
  - simpl in R. rewrite R. eexists. split; reflexivity.
Qed.

Lemma open_par_rel b s : rel b s -> exists b', open_par b = BOk b' /\ rel b' (mstep s SOpen).
Proof.
  intros R. unfold open_par. destruct s as [st|st t|].
  - destruct R as (h & fp & E1 & E2 & E3 & E4 & E5). rewrite E1. unfold filled. rewrite E2.
    eexists. split; [reflexivity|]. exists h, fp. simpl. repeat split; auto. constructor; auto.
  - destruct (reduce 8 st t) as [st' t'] eqn:Q.
    destruct (done_pop 8 _ _ _ _ _ (le_n 8) R Q) as (h0 & h' & fs' & fp' & ft' & A1 & A2 & _).
    rewrite A1, A2. eexists. split; reflexivity.
  - simpl in R. rewrite R. eexists. split; reflexivity.
Qed.

Lemma path_top m st fs h fp : path m st fs h fp -> forall k q r, fs = (q, k) :: r ->
  blocks 9 st -> exists st', st = FPar :: st' /\ k = h /\ path m st' r h fp.
Proof.
  destruct 1 as [|o st fs k0 j fp H E|o c st fs k0 l r0 fl fp H E Tl|st fs k0 fp H];
    intros k q r Ef B; inversion Ef; subst; simpl in B.
  - discriminate.
  - pose proof (level_le_8 o). lia.
  - eauto.
Qed.

Lemma reduce_blocks st : forall t st' t', reduce 8 st t = (st', t') -> blocks 9 st'.
Proof.
  induction st as [|[o|o l|] st IH]; simpl; intros t st' t' H.
  - injection H as <- <-. simpl; auto.
  - eauto.
  - replace (level o <=? 8) with true in H by (symmetry; apply Nat.leb_le, level_le_8). eauto.
  - injection H as <- <-. simpl; auto.
Qed.

Lemma done_open b st t st' t' : rel b (Done st t) -> reduce 8 st t = (st', t') ->
  exists h0 h' fs' fp' ft', b_head b = Some h0 /\ filled (b_slots b) h0 = true /\
    pop_open (b_frames b) = fs' /\
    path (b_slots b) st' fs' h' fp' /\ tree (b_slots b) h' (map_leaves Some t') ft' /\
    NoDup (ft' ++ fp') /\ below (b_next b) (ft' ++ fp') /\ blocks 9 st'.
Proof.
  intros R Q. destruct (done_pop 8 _ _ _ _ _ (le_n 8) R Q)
    as (h0 & h' & fs' & fp' & ft' & A1 & A2 & A3 & A4).
  exists h0, h', fs', fp', ft'. repeat split; try tauto.
  - rewrite (pop_open_upto _ h0 (frames_prec _ _ _ R)), A3. auto.
  - eapply reduce_blocks; eauto.
Qed.

Lemma close_par_rel b s : rel b s -> exists b', close_par b = BOk b' /\ rel b' (mstep s SClose).
Proof.
  intros R. unfold close_par. destruct s as [st|st t|].
  - destruct R as (h & fp & E1 & E2 & E3 & E4 & E5). rewrite E1. unfold filled at 1. rewrite E2.
    destruct (pop_open (b_frames b)) as [|[]]; eexists; split; reflexivity.
  - simpl. destruct (reduce 8 st t) as [st' t'] eqn:Q.
    destruct (done_open _ _ _ _ _ R Q)
      as (h0 & h' & fs' & fp' & ft' & A1 & A2 & A3 & A4 & A5 & A6 & A7 & A8).
    rewrite A3, A1. destruct fs' as [|[q k] r].
    + inversion A4; subst. eexists; split; reflexivity.
    + destruct (path_top _ _ _ _ _ A4 _ _ _ eq_refl A8) as (st2 & -> & -> & P2).
      rewrite A2. rewrite (tree_filled _ _ _ _ A5). simpl.
      eexists. split; [reflexivity|]. exists h', r, fp', ft'. simpl. auto 8.
  - simpl in R. rewrite R. eexists. split; reflexivity.
Qed.

Lemma par_all_rel b s : rel b s -> exists b', par_all b = BOk b' /\ rel b' (astep s KPar).
Proof.
  intros R. unfold par_all. destruct s as [st|st t|].
  - destruct R as (h & fp & E1 & E2 & E3 & E4 & E5). rewrite E1. unfold filled at 1. rewrite E2.
    destruct (pop_open (b_frames b)) as [|[]]; eexists; split; reflexivity.
  - simpl. destruct (reduce 8 st t) as [st' t'] eqn:Q.
    destruct (done_open _ _ _ _ _ R Q)
      as (h0 & h' & fs' & fp' & ft' & A1 & A2 & A3 & A4 & A5 & A6 & A7 & A8).
    rewrite A3, A1. destruct fs' as [|[q k] r].
    + inversion A4; subst. rewrite A2, (tree_filled _ _ _ _ A5). simpl.
      eexists; split; [reflexivity|]. exists 0, [], [], ft'. simpl. repeat split; auto.
    + destruct (path_top _ _ _ _ _ A4 _ _ _ eq_refl A8) as (st2 & -> & -> & P2).
      eexists. split; reflexivity.
  - simpl in R. rewrite R. simpl. destruct (pop_open (b_frames b)); eexists; split; reflexivity.
Qed.

Lemma call_rel k b s : rel b s -> exists b', call k b = BOk b' /\ rel b' (astep s k).
Proof.
  intros R. destruct k as [[]|]; simpl.
  - apply (put_leaf_rel b s (BNum n) (CInt n)); auto. intros; apply tr_num; auto.
  - apply (put_leaf_rel b s (BName (Some s0)) (CFeat s0)); auto. intros; apply tr_name; auto.
  - apply put_unary_rel; auto.
  - apply put_binary_rel; auto.
  - apply open_par_rel; auto.
  - apply close_par_rel; auto.
  - apply par_all_rel; auto.
Qed.

Lemma calls_rel ks : forall b s, rel b s -> exists b', calls ks b = BOk b' /\ rel b' (arun ks s).
Proof.
  induction ks as [|k ks IH]; intros b s R; simpl.
  - eauto.
  - destruct (call_rel k b s R) as (b1 & -> & R1). apply IH; auto.
Qed.

Lemma new_rel : rel new_builder (Hole []).
Proof.
  exists 0, []. simpl. repeat split; auto.
  - constructor.
  - constructor; [simpl; auto|constructor].
  - constructor; [lia|constructor].
Qed.

(** ** Building *)

Lemma extract_tree m k c fp : tree m k c fp -> forall fuel, NoDup fp -> List.length fp <= fuel ->
  exists m', extract fuel m k = Some (c, m') /\ tree m' k (map_leaves (fun _ => None) c) fp /\
    forall j, ~ In j fp -> m' j = m j.
Proof.
  intros H fuel. revert m k c fp H.
  induction fuel as [|fuel IH]; intros m k c fp H ND L.
  { apply tree_head in H. destruct fp; simpl in *; [contradiction|lia]. }
  destruct H as [k n E|k s E|k o j c fp E Hj|k o l r cl cr fl fr E Hl Hr]; simpl; rewrite E.
  - exists m. split; [auto|]. split; [apply tr_num; auto|auto].
  - eexists. split; [reflexivity|]. split; [apply tr_name, set_same|].
    intros j Hj. apply set_other. intros ->. apply Hj. simpl; auto.
  - inversion ND as [|? ? NI ND']; subst. simpl in L.
    destruct (IH m j c fp Hj ND') as (m' & E' & T' & F'); [lia|]. rewrite E'.
    eexists. split; [reflexivity|]. split.
    + eapply tr_un; eauto. rewrite F'; auto.
    + intros i Hi. apply F'. simpl in Hi. tauto.
  - inversion ND as [|? ? NI ND']; subst. simpl in L. rewrite app_length in L.
    destruct (NoDup_app_parts _ _ ND') as (NL & NR & DJ).
    destruct (IH m l cl fl Hl NL) as (m1 & E1 & T1 & F1); [lia|]. rewrite E1.
    destruct (IH m1 r cr fr) as (m2 & E2 & T2 & F2); [| auto | lia |].
    { eapply tree_frame; eauto. intros j Hj. apply F1. intros I; apply (DJ j); auto. }
    rewrite E2. eexists. split; [reflexivity|]. rewrite in_app_iff in NI. split.
    + eapply tr_bin.
      * rewrite F2, F1 by tauto. eauto.
      * eapply tree_frame; [exact T1|]. intros j Hj. apply F2. apply DJ; auto.
      * exact T2.
    + intros j Hj. simpl in Hj. rewrite in_app_iff in Hj. rewrite F2, F1; tauto.
Qed.

Lemma below_length n fp : NoDup fp -> below n fp -> List.length fp <= n.
Proof.
  intros ND B. rewrite <- (seq_length n 0). apply NoDup_incl_length; auto.
  intros x Hx. apply in_seq. unfold below in B. rewrite Forall_forall in B. apply B in Hx. lia.
Qed.

Lemma build_rel b s : rel b s ->
  fst (build b) = match mresult s with Some c => Built (map_leaves Some c) | None => BuiltNull end.
Proof.
  intros R. unfold build. destruct s as [st|st t|].
  - destruct R as (h & fp & E1 & E2 & E3 & E4 & E5). rewrite E1. unfold filled at 1. rewrite E2.
    destruct (pop_open (b_frames b)) as [|[]]; reflexivity.
  - simpl. destruct (reduce 8 st t) as [st' t'] eqn:Q.
    destruct (done_open _ _ _ _ _ R Q)
      as (h0 & h' & fs' & fp' & ft' & A1 & A2 & A3 & A4 & A5 & A6 & A7 & A8).
    rewrite A3, A1. destruct fs' as [|[q k] r].
    + inversion A4; subst. rewrite A2, (tree_filled _ _ _ _ A5). simpl.
      rewrite app_nil_r in *.
      destruct (extract_tree _ _ _ _ A5 (b_next b) A6 (below_length _ _ A6 A7)) as (m' & E' & _).
      rewrite E'. reflexivity.
    + destruct (path_top _ _ _ _ _ A4 _ _ _ eq_refl A8) as (st2 & -> & -> & P2). reflexivity.
  - simpl in R. rewrite R. reflexivity.
Qed.

Lemma chain_machine ks :
  chain ks = match mresult (arun ks (Hole [])) with
             | Some c => Built (map_leaves Some c) | None => BuiltNull end.
Proof.
  unfold chain. destruct (calls_rel ks _ _ new_rel) as (b & -> & R). apply build_rel; auto.
Qed.

(** Building twice. *)
Lemma build_twice ks st c st' : calls ks new_builder = BOk st -> build st = (Built c, st') ->
  fst (build st') = Built (map_leaves (fun _ => None) c).
Proof.
  intros E Bd. destruct (calls_rel ks _ _ new_rel) as (b & E' & R). rewrite E in E'.
  injection E' as <-. destruct (arun ks (Hole [])) as [s|s t|].
  - pose proof (build_rel _ _ R) as X. rewrite Bd in X. discriminate.
  - destruct (reduce 8 s t) as [s' t'] eqn:Q.
    destruct (done_open _ _ _ _ _ R Q)
      as (h0 & h' & fs' & fp' & ft' & A1 & A2 & A3 & A4 & A5 & A6 & A7 & A8).
    unfold build in Bd. rewrite A3, A1 in Bd. destruct fs' as [|[q k] r].
    + inversion A4; subst. rewrite A2, (tree_filled _ _ _ _ A5) in Bd. simpl in Bd.
      rewrite app_nil_r in *.
      destruct (extract_tree _ _ _ _ A5 (b_next st) A6 (below_length _ _ A6 A7)) as (m' & E2 & T2 & F2).
      rewrite E2 in Bd. injection Bd as <- <-.
      unfold build. simpl.
      destruct (extract_tree _ _ _ _ T2 (b_next st) A6 (below_length _ _ A6 A7)) as (m3 & E3 & T3 & F3).
      assert (FH : filled m' h0 = true).
      { unfold filled in *. destruct (in_dec Nat.eq_dec h0 ft') as [I|I].
        - clear - T2 I.
          assert (G : forall k c fp, tree m' k c fp -> forall j, In j fp -> exists v, m' j = Some v).
          { induction 1; simpl; intros i Hi.
            - destruct Hi as [<-|[]]; eauto.
            - destruct Hi as [<-|[]]; eauto.
            - destruct Hi as [<-|Hi]; eauto.
            - destruct Hi as [<-|Hi]; eauto. apply in_app_or in Hi as [Hi|Hi]; eauto. }
          destruct (G _ _ _ T2 _ I) as [v ->]. auto.
        - rewrite F2 by auto. auto. }
      rewrite FH, (tree_filled _ _ _ _ T2). simpl. rewrite E3. simpl. f_equal.
    + destruct (path_top _ _ _ _ _ A4 _ _ _ eq_refl A8) as (st2 & -> & -> & P2). discriminate.
  - simpl in R. unfold build in Bd. rewrite R in Bd. discriminate.
Qed.

(** ** Chains and words *)

Lemma arun_snoc ks k s : arun (ks ++ [k]) s = astep (arun ks s) k.
Proof. unfold arun. rewrite fold_left_app. reflexivity. Qed.

Lemma mresult_close w c : mresult (mrun w (Hole [])) = Some c ->
  mrun (SOpen :: w ++ [SClose]) (Hole []) = Done [] c.
Proof.
  intros H. apply machine_rejects in H.
  destruct (proj1 machine_complete _ _ (u_par _ _ H) []) as (st1 & t & E & Hi & Z).
  rewrite E. destruct st1 as [|f st1].
  - simpl in *. congruence.
  - exfalso. unfold mrun in E. simpl in E. rewrite fold_left_app in E.
    destruct (proj2 machine_complete _ _ _ H [FPar] I) as (st2 & t2 & E2 & Hi2 & Z2).
    unfold mrun in E2. rewrite E2 in E. simpl in E.
    rewrite reduce_zip in E by (simpl; auto). discriminate.
Qed.

Lemma spelled_run ks w : spelled ks w -> arun ks (Hole []) = mrun w (Hole []).
Proof.
  induction 1 as [|ks w s _ IH|ks w c _ IH Hc]; auto.
  - rewrite arun_snoc, mrun_snoc, IH. reflexivity.
  - rewrite arun_snoc, IH. simpl. rewrite (machine_accepts _ _ Hc).
    symmetry. exact (mresult_close w c (machine_accepts _ _ Hc)).
Qed.

Lemma run_spelled ks : arun ks (Hole []) <> Err -> exists w, spelled ks w.
Proof.
  induction ks as [|k ks IH] using rev_ind; [eexists; constructor|].
  rewrite arun_snoc. intros H.
  assert (N : arun ks (Hole []) <> Err) by (intros E; rewrite E in H; apply H; destruct k as [[]|]; reflexivity).
  destruct (IH N) as [w Hw]. destruct k as [s|]; [eexists; constructor; eauto|].
  rewrite (spelled_run _ _ Hw) in H. simpl in H.
  destruct (mresult (mrun w (Hole []))) as [c|] eqn:E; [|congruence].
  eexists. eapply sp_par; eauto. apply machine_rejects; eauto.
Qed.

Lemma spelled_fun ks w w' : spelled ks w -> spelled ks w' -> w = w'.
Proof.
  intros H. revert w'. induction H as [|ks w s _ IH|ks w c _ IH Hc]; intros w' H'.
  - inversion H'; subst; auto; destruct ks; discriminate.
  - inversion H' as [E|? ? ? H2 E|? ? ? H2 ? E].
    + destruct ks; discriminate.
    + apply app_inj_tail in E as [-> E]. injection E as ->. f_equal. auto.
    + apply app_inj_tail in E as [-> E]. discriminate.
  - inversion H' as [E|? ? ? H2 E|? ? ? H2 ? E].
    + destruct ks; discriminate.
    + apply app_inj_tail in E as [-> E]. discriminate.
    + apply app_inj_tail in E as [-> E]. f_equal. f_equal. auto.
Qed.

Lemma map_leaves_inj {F G} (f : F -> G) : (forall x y, f x = f y -> x = y) ->
  forall c c', map_leaves f c = map_leaves f c' -> c = c'.
Proof.
  intros I. induction c; destruct c'; simpl; intros H; try discriminate; injection H; intros; subst; f_equal; auto.
Qed.

(** The builder returns a constraint exactly for chains that spell one. *)
Lemma chain_spec ks c :
  chain ks = Built c <-> exists w t, spelled ks w /\ spells w t /\ c = map_leaves Some t.
Proof.
  rewrite chain_machine. split.
  - destruct (mresult (arun ks (Hole []))) as [t|] eqn:E; intros H; [|discriminate].
    injection H as <-.
    assert (N : arun ks (Hole []) <> Err) by (intros Q; rewrite Q in E; discriminate).
    destruct (run_spelled _ N) as [w Hw]. exists w, t. split; auto. split; auto.
    apply machine_rejects. rewrite <- (spelled_run _ _ Hw). auto.
  - intros (w & t & Hw & Ht & ->). rewrite (spelled_run _ _ Hw), (machine_accepts _ _ Ht). auto.
Qed.

Lemma chain_safe ks : chain ks = BuiltNull \/ exists c, chain ks = Built c.
Proof. rewrite chain_machine. destruct (mresult _); eauto. Qed.

(** Plain chains. *)
Lemma spelled_plain w : spelled (map KSym w) w.
Proof.
  induction w as [|s w IH] using rev_ind; [constructor|].
  rewrite map_app. simpl. constructor; auto.
Qed.

(** ** Misuse *)

Fixpoint depth (st : list frame) : nat :=
  match st with FPar :: r => S (depth r) | _ :: r => depth r | [] => 0 end.

Definition shape (s : mstate) (b : bool) (d : nat) : Prop :=
  match s with
  | Hole st => b = false /\ d = depth st
  | Done st t => b = true /\ d = depth st
  | Err => False
  end.

Lemma reduce_depth p st : forall t, depth (fst (reduce p st t)) = depth st.
Proof.
  induction st as [|[o|o l|] st IH]; simpl; intros t; auto.
  destruct (level o <=? p); simpl; auto.
Qed.

Lemma reduce_8_cases st t : (exists t', reduce 8 st t = ([], t') /\ depth st = 0) \/
  (exists st' t', reduce 8 st t = (FPar :: st', t') /\ depth st = S (depth st')).
Proof.
  pose proof (reduce_depth 8 st t) as D. destruct (reduce 8 st t) as [st' t'] eqn:Q.
  pose proof (reduce_blocks _ _ _ _ Q) as B. simpl in D. destruct st' as [|[o|o l|] st']; simpl in *.
  - left; eauto.
  - discriminate.
  - pose proof (level_le_8 o); lia.
  - right; eauto.
Qed.

Lemma placed_step s b d k b' d' : shape s b d -> placed b d k b' d' -> shape (astep s k) b' d'.
Proof.
  intros S P. destruct s as [st|st t|]; simpl in S; [| |contradiction];
    destruct S as [-> ->]; inversion P; subst; simpl; auto.
  - pose proof (reduce_depth (level o) st t) as D.
    destruct (reduce (level o) st t). simpl in *. auto.
  - destruct (reduce_8_cases st t) as [(t' & E & D)|(st' & t' & E & D)]; [congruence|].
    rewrite E. simpl. split; auto. congruence.
  - destruct (reduce_8_cases st t) as [(t' & E & D)|(st' & t' & E & D)]; [|congruence].
    rewrite E. simpl. auto.
Qed.

Lemma step_placed s b d k : shape s b d -> astep s k <> Err -> exists b' d', placed b d k b' d'.
Proof.
  intros S N. destruct s as [st|st t|]; simpl in S; [| |contradiction]; destruct S as [-> ->];
    destruct k as [[]|]; simpl in N; try congruence; try (do 2 eexists; constructor).
  - destruct (reduce_8_cases st t) as [(t' & E & D)|(st' & t' & E & D)]; rewrite E in N; [congruence|].
    rewrite D. do 2 eexists. constructor.
  - destruct (reduce_8_cases st t) as [(t' & E & D)|(st' & t' & E & D)]; rewrite E in N; [|congruence].
    rewrite D. do 2 eexists. constructor.
Qed.

Lemma well_placed_shape ks b d : well_placed ks b d -> shape (arun ks (Hole [])) b d.
Proof.
  induction 1 as [|ks b d k b' d' _ IH P]; [simpl; auto|].
  rewrite arun_snoc. eapply placed_step; eauto.
Qed.

Lemma run_well_placed ks : arun ks (Hole []) <> Err -> exists b d, well_placed ks b d.
Proof.
  induction ks as [|k ks IH] using rev_ind; [do 2 eexists; constructor|].
  rewrite arun_snoc. intros H.
  assert (N : arun ks (Hole []) <> Err) by (intros E; rewrite E in H; apply H; destruct k as [[]|]; reflexivity).
  destruct (IH N) as (b & d & W). pose proof (well_placed_shape _ _ _ W) as S.
  destruct (step_placed _ _ _ _ S H) as (b' & d' & P). exists b', d'. econstructor; eauto.
Qed.

Lemma arun_err ks : arun ks Err = Err.
Proof. induction ks as [|[[]|] ks IH]; auto. Qed.

Lemma arun_app a b s : arun (a ++ b) s = arun b (arun a s).
Proof. unfold arun. apply fold_left_app. Qed.

Lemma misuse_sticky ks : (~ exists b d, well_placed ks b d) ->
  forall ks', chain (ks ++ ks') = BuiltNull.
Proof.
  intros N ks'. rewrite chain_machine, arun_app.
  assert (E : arun ks (Hole []) = Err).
  { destruct (arun ks (Hole [])) eqn:E; auto; exfalso; apply N; apply run_well_placed; congruence. }
  rewrite E, arun_err. reflexivity.
Qed.

Lemma well_placed_build ks b d : well_placed ks b d ->
  ((exists c, chain ks = Built c) <-> b = true /\ d = 0).
Proof.
  intros W. pose proof (well_placed_shape _ _ _ W) as S. rewrite chain_machine.
  destruct (arun ks (Hole [])) as [st|st t|]; simpl in S; [| |contradiction]; destruct S as [-> ->]; simpl.
  - split; [intros [c H]; discriminate|intros [H _]; discriminate].
  - destruct (reduce_8_cases st t) as [(t' & E & D)|(st' & t' & E & D)]; rewrite E; split.
    + auto.
    + eauto.
    + intros [c H]; discriminate.
    + intros [_ H]; congruence.
Qed.

Lemma well_placed_completable ks b d : well_placed ks b d ->
  exists ks' c, chain (ks ++ ks') = Built c.
Proof.
  intros W.
  assert (G : forall n ks0, well_placed ks0 true n -> exists ks' c, chain (ks0 ++ ks') = Built c).
  { induction n as [|n IH]; intros ks0 W0.
    - exists []. rewrite app_nil_r. apply (well_placed_build _ _ _ W0). auto.
    - destruct (IH (ks0 ++ [KSym SClose])) as (ks' & c & E).
      + econstructor; eauto. constructor.
      + exists (KSym SClose :: ks'), c. rewrite <- E, <- app_assoc. reflexivity. }
  destruct b; [eauto|].
  destruct (G d (ks ++ [KSym (SNum 0)])) as (ks' & c & E).
  - econstructor; eauto. constructor.
  - exists (KSym (SNum 0) :: ks'), c. rewrite <- E, <- app_assoc. reflexivity.
Qed.
