(** Proofs about cloning, visiting and HTML rendering of constraints. *)
From Coq Require Import List Ascii String ZArith Arith Bool Lia.
From Verif Require Import Text TextProofs ConstraintModel ConstraintSpec ConstraintHeapModel ConstraintHeapSpec.
Import ListNotations.

Lemma holds_ext h h' a p c ns fs : holds h a p c ns fs ->
  (forall b, In b ns -> h_obj h' b = h_obj h b /\ h_par h' b = h_par h b) ->
  (forall f, In f fs -> h_feat h' f = h_feat h f) -> holds h' a p c ns fs.
Proof.
  induction 1 as [a p o l r cl cr nl nr fl fr E P _ IHl _ IHr|a p o e c ns fs E P _ IH|a p n E P|a p f s E P Ef];
    intros Hn Hf; destruct (Hn a (or_introl eq_refl)) as [A B]; rewrite <- A in E; rewrite <- B in P.
  - eapply ho_bin; eauto.
    + apply IHl; intros; [apply Hn; simpl; right|apply Hf]; apply in_or_app; auto.
    + apply IHr; intros; [apply Hn; simpl; right|apply Hf]; apply in_or_app; auto.
  - eapply ho_un; eauto. apply IH; intros; [apply Hn; simpl; right|apply Hf]; auto.
  - apply ho_int; auto.
  - eapply ho_feat; eauto. rewrite Hf; simpl; auto.
Qed.

(** Replacing the parent of the root of a tree. *)
Lemma holds_reparent h h' a p q c ns fs : holds h a p c ns fs -> NoDup ns ->
  h_par h' a = q -> (forall b, In b ns -> h_obj h' b = h_obj h b) ->
  (forall b, In b ns -> b <> a -> h_par h' b = h_par h b) ->
  (forall f, In f fs -> h_feat h' f = h_feat h f) -> holds h' a q c ns fs.
Proof.
  intros H ND Q Ho Hp Hf.
  destruct H as [a p o l r cl cr nl nr fl fr E P Hl Hr|a p o e c ns fs E P He|a p n E P|a p f s E P Ef].
  - inversion ND as [|? ? NI ND']; subst. eapply ho_bin; [rewrite Ho by (simpl; auto); exact E|reflexivity| |].
    + eapply holds_ext; eauto.
      * intros b Hb. split; [apply Ho|apply Hp]; simpl; auto; try (right; apply in_or_app; auto).
        intros ->. apply NI, in_or_app; auto.
      * intros; apply Hf, in_or_app; auto.
    + eapply holds_ext; eauto.
      * intros b Hb. split; [apply Ho|apply Hp]; simpl; auto; try (right; apply in_or_app; auto).
        intros ->. apply NI, in_or_app; auto.
      * intros; apply Hf, in_or_app; auto.
  - inversion ND as [|? ? NI ND']; subst. eapply ho_un; [rewrite Ho by (simpl; auto); exact E|reflexivity|].
    eapply holds_ext; eauto. intros b Hb. split; [apply Ho|apply Hp]; simpl; auto. intros ->; auto.
  - constructor; auto. rewrite Ho; simpl; auto.
  - eapply ho_feat; [rewrite Ho by (simpl; auto); exact E|auto|]. rewrite Hf; simpl; auto.
Qed.

Lemma extends_refl h : extends h h.
Proof. repeat split; auto. Qed.
Lemma extends_trans a b c : extends a b -> extends b c -> extends a c.
Proof.
  intros (A1 & A2 & A3 & A4) (B1 & B2 & B3 & B4). repeat split; try lia.
  - destruct (A3 a0 H), (B3 a0); try lia; congruence.
  - destruct (A3 a0 H), (B3 a0); try lia; congruence.
  - intros f H. rewrite B4, A4; auto; lia.
Qed.

Lemma holds_extends h h' a p c ns fs : extends h h' -> holds h a p c ns fs -> in_use h ns fs -> holds h' a p c ns fs.
Proof.
  intros (E1 & E2 & E3 & E4) H [U1 U2]. rewrite Forall_forall in *. eapply holds_ext; eauto.
Qed.

Lemma in_use_app h nl nr fl fr a : in_use h (a :: nl ++ nr) (fl ++ fr) -> in_use h nl fl /\ in_use h nr fr.
Proof.
  intros [A B]. inversion A as [|? ? _ A']; subst. apply Forall_app in A'. apply Forall_app in B.
  unfold in_use. tauto.
Qed.

Lemma in_use_extends h h' ns fs : extends h h' -> in_use h ns fs -> in_use h' ns fs.
Proof.
  intros (E1 & E2 & _) [A B]. split; [eapply Forall_impl; [|exact A]|eapply Forall_impl; [|exact B]];
    simpl; intros; lia.
Qed.

(** What a copy looks like. *)
Definition fresh_between (h h' : cheap) (ns fs : list nat) : Prop :=
  Forall (fun a => h_next h <= a < h_next h') ns /\ Forall (fun f => h_fnext h <= f < h_fnext h') fs /\
  NoDup ns /\ NoDup fs.

Lemma NoDup_app_ranges (x y : list nat) n1 n2 n3 :
  Forall (fun a => n1 <= a < n2) x -> Forall (fun a => n2 <= a < n3) y -> NoDup x -> NoDup y -> NoDup (x ++ y).
Proof.
  intros F G N M. induction N as [|a x NI N IH]; simpl; auto.
  inversion F; subst. constructor; auto.
  intros I. apply in_app_or in I as [I|I]; auto. rewrite Forall_forall in G. apply G in I. lia.
Qed.

Lemma range_weaken (x : list nat) a b a' b' : a' <= a -> b <= b' ->
  Forall (fun n => a <= n < b) x -> Forall (fun n => a' <= n < b') x.
Proof. intros L M. apply Forall_impl. intros; lia. Qed.

Ltac eqb_tac := repeat match goal with
  | |- context [Nat.eqb ?x ?y] => destruct (Nat.eqb_spec x y); try lia; subst
  end.

Lemma clone_spec fuel : forall h a p c ns fs, holds h a p c ns fs -> in_use h ns fs -> size c <= fuel ->
  exists a' h' ns' fs', clone fuel h a = Some (a', h') /\ extends h h' /\
    holds h' a' None c ns' fs' /\ fresh_between h h' ns' fs' /\ List.hd_error ns' = Some a'.
Proof.
  induction fuel as [|fuel IH]; intros h a p c ns fs H U L.
  { destruct c; simpl in L; lia. }
  destruct H as [a p o l r cl cr nl nr fl fr E P Hl Hr|a p o e c ns fs E P He|a p n E P|a p f s E P Ef];
    simpl in L; cbn [clone]; rewrite E.
  - destruct (in_use_app _ _ _ _ _ _ U) as [Ul Ur].
    destruct (IH h l _ cl nl fl Hl Ul) as (l' & h1 & nl' & fl' & C1 & X1 & H1 & F1 & D1); [lia|].
    rewrite C1.
    destruct (IH h1 r _ cr nr fr (holds_extends _ _ _ _ _ _ _ X1 Hr Ur) (in_use_extends _ _ _ _ X1 Ur))
      as (r' & h2 & nr' & fr' & C2 & X2 & H2 & F2 & D2); [lia|].
    rewrite C2. unfold mk_bin, alloc. simpl.
    destruct F1 as (Fn1 & Ff1 & Nn1 & Nf1). destruct F2 as (Fn2 & Ff2 & Nn2 & Nf2).
    assert (Il : In l' nl') by (destruct nl'; simpl in D1; [discriminate|injection D1 as ->; simpl; auto]).
    assert (Ir : In r' nr') by (destruct nr'; simpl in D2; [discriminate|injection D2 as ->; simpl; auto]).
    pose proof (proj1 (Forall_forall _ _) Fn1) as Gn1. pose proof (proj1 (Forall_forall _ _) Fn2) as Gn2.
    cbv beta in Gn1, Gn2.
    pose proof (Gn1 _ Il) as Rl. pose proof (Gn2 _ Ir) as Rr.
    destruct X1 as (X1a & X1b & X1c & X1d). destruct X2 as (X2a & X2b & X2c & X2d).
    do 2 eexists. exists (h_next h2 :: nl' ++ nr'), (fl' ++ fr').
    split; [reflexivity|]. split; [|split; [|split]].
    + split; [simpl; lia|]. split; [simpl; lia|]. split.
      * intros b Hb. simpl. eqb_tac. destruct (X1c b Hb), (X2c b); try lia. split; congruence.
      * intros g Hg. simpl. rewrite X2d, X1d; auto; lia.
    + econstructor; simpl.
      * rewrite Nat.eqb_refl. reflexivity.
      * eqb_tac. reflexivity.
      * eapply holds_reparent with (h := h1); eauto; simpl.
        -- eqb_tac; auto.
        -- intros b Hb. pose proof (Gn1 _ Hb). eqb_tac. apply X2c; lia.
        -- intros b Hb N. pose proof (Gn1 _ Hb). eqb_tac. apply X2c; lia.
        -- intros g Hg. rewrite Forall_forall in Ff1. pose proof (Ff1 _ Hg). apply X2d; lia.
      * eapply holds_reparent with (h := h2); eauto; simpl.
        -- eqb_tac; auto.
        -- intros b Hb. pose proof (Gn2 _ Hb). eqb_tac. auto.
        -- intros b Hb N. pose proof (Gn2 _ Hb). eqb_tac. auto.
    + split; [|split; [|split]].
      * constructor; [simpl; lia|]. apply Forall_app. simpl. split.
        -- eapply range_weaken; [| |exact Fn1]; lia.
        -- eapply range_weaken; [| |exact Fn2]; lia.
      * simpl. apply Forall_app. split; eapply range_weaken; [| |exact Ff1| | |exact Ff2]; lia.
      * constructor.
        -- intros I. apply in_app_or in I as [I|I]; [apply Gn1 in I|apply Gn2 in I]; lia.
        -- eapply NoDup_app_ranges; eauto.
      * eapply NoDup_app_ranges; eauto.
    + reflexivity.
  - assert (Ue : in_use h ns fs) by (destruct U as [A B]; inversion A; split; auto).
    destruct (IH h e _ c ns fs He Ue) as (e' & h1 & ns' & fs' & C1 & X1 & H1 & F1 & D1); [lia|].
    rewrite C1. unfold mk_un, alloc. simpl.
    destruct F1 as (Fn1 & Ff1 & Nn1 & Nf1). destruct X1 as (X1a & X1b & X1c & X1d).
    assert (Ie : In e' ns') by (destruct ns'; simpl in D1; [discriminate|injection D1 as ->; simpl; auto]).
    pose proof (proj1 (Forall_forall _ _) Fn1) as Gn1. cbv beta in Gn1. pose proof (Gn1 _ Ie) as Re.
    do 2 eexists. exists (h_next h1 :: ns'), fs'.
    split; [reflexivity|]. split; [|split; [|split]].
    + split; [simpl; lia|]. split; [simpl; lia|]. split.
      * intros b Hb. simpl. eqb_tac. auto.
      * intros g Hg. simpl. auto.
    + econstructor; simpl.
      * rewrite Nat.eqb_refl. reflexivity.
      * eqb_tac. reflexivity.
      * eapply holds_reparent with (h := h1); eauto; simpl.
        -- eqb_tac; auto.
        -- intros b Hb. pose proof (Gn1 _ Hb). eqb_tac. auto.
        -- intros b Hb N. pose proof (Gn1 _ Hb). eqb_tac. auto.
    + split; [|split; [|split]]; simpl; auto.
      * constructor; [lia|]. eapply range_weaken; [| |exact Fn1]; lia.
      * constructor; auto. intros I. apply Gn1 in I. lia.
    + reflexivity.
  - unfold alloc. do 2 eexists. exists [h_next h], []. split; [reflexivity|]. split; [|split; [|split]].
    + split; [simpl; lia|]. split; [simpl; lia|]. split; auto. intros b Hb. simpl. eqb_tac. auto.
    + constructor; simpl; rewrite Nat.eqb_refl; auto.
    + split; [|split; [|split]]; simpl; auto; repeat constructor; simpl; auto.
    + reflexivity.
  - rewrite Ef. unfold alloc_feature, alloc. simpl. do 2 eexists. exists [h_next h], [h_fnext h].
    split; [reflexivity|]. split; [|split; [|split]].
    + split; [simpl; lia|]. split; [simpl; lia|]. split.
      * intros b Hb. simpl. eqb_tac. auto.
      * intros g Hg. simpl. eqb_tac. auto.
    + eapply ho_feat; simpl; rewrite Nat.eqb_refl; auto.
    + split; [|split; [|split]]; simpl; repeat constructor; simpl; auto.
    + reflexivity.
Qed.

(** [getRoot] of a node inside a tree climbs to the top of the tree. *)
Lemma root_climbs h a p c ns fs : holds h a p c ns fs -> forall b, In b ns ->
  exists k, k < size c /\ forall n, get_root (k + n) h b = get_root n h a.
Proof.
  induction 1 as [a p o l r cl cr nl nr fl fr E P Hl IHl Hr IHr|a p o e c ns fs E P He IH|a p n E P|a p f s E P Ef];
    intros b Hb; simpl in Hb.
  - destruct Hb as [<-|Hb]; [exists 0; simpl; split; [lia|auto]|].
    apply in_app_or in Hb as [Hb|Hb].
    + destruct (IHl _ Hb) as (k & L & G). exists (S k). simpl size. split; [lia|]. intros n.
      replace (S k + n) with (k + S n) by lia. rewrite G. simpl. inversion Hl; subst; rewrite ?H0, ?H; auto;
      match goal with H : h_par h l = _ |- _ => rewrite H end; auto.
    + destruct (IHr _ Hb) as (k & L & G). exists (S k). simpl size. split; [lia|]. intros n.
      replace (S k + n) with (k + S n) by lia. rewrite G. simpl.
      inversion Hr; subst; match goal with H : h_par h r = _ |- _ => rewrite H end; auto.
  - destruct Hb as [<-|Hb]; [exists 0; simpl; split; [lia|auto]|].
    destruct (IH _ Hb) as (k & L & G). exists (S k). simpl size. split; [lia|]. intros n.
    replace (S k + n) with (k + S n) by lia. rewrite G. simpl.
    inversion He; subst; match goal with H : h_par h e = _ |- _ => rewrite H end; auto.
  - destruct Hb as [<-|[]]. exists 0; simpl; auto.
  - destruct Hb as [<-|[]]. exists 0; simpl; auto.
Qed.

Lemma holds_par h a p c ns fs : holds h a p c ns fs -> h_par h a = p.
Proof. destruct 1; auto. Qed.

Lemma root_of_node h a c ns fs b fuel : holds h a None c ns fs -> In b ns -> size c <= fuel ->
  get_root fuel h b = Some a.
Proof.
  intros H I L. destruct (root_climbs _ _ _ _ _ _ H _ I) as (k & Lk & G).
  replace fuel with (k + S (fuel - k - 1)) by lia. rewrite G. simpl. rewrite (holds_par _ _ _ _ _ _ H). auto.
Qed.

(** The property as stated: the copy, its links and its freshness. *)
Lemma clone_property h a p c ns fs fuel :
  holds h a p c ns fs -> in_use h ns fs -> size c <= fuel ->
  exists a' h' ns' fs',
    clone fuel h a = Some (a', h') /\
    holds h' a' None c ns' fs' /\ holds h' a p c ns fs /\
    (forall b, In b ns' -> ~ In b ns) /\ (forall f, In f fs' -> ~ In f fs) /\
    (forall b, In b ns' -> get_root fuel h' b = Some a') /\
    extends h h'.
Proof.
  intros H U L. destruct (clone_spec fuel h a p c ns fs H U L) as (a' & h' & ns' & fs' & C & X & H' & F & _).
  exists a', h', ns', fs'. split; auto. split; auto. split; [eapply holds_extends; eauto|].
  destruct F as (F1 & F2 & _). destruct U as [U1 U2]. rewrite Forall_forall in *.
  split; [|split; [|split]]; auto.
  - intros b Hb Hb'. apply F1 in Hb. apply U1 in Hb'. lia.
  - intros b Hb Hb'. apply F2 in Hb. apply U2 in Hb'. lia.
  - intros b Hb. eapply root_of_node; eauto.
Qed.

(** A tree at an address is unique. *)
Lemma holds_fun h a p c ns fs : holds h a p c ns fs -> forall p' c' ns' fs',
  holds h a p' c' ns' fs' -> p = p' /\ c = c' /\ ns = ns' /\ fs = fs'.
Proof.
  induction 1 as [a p o l r cl cr nl nr fl fr E P Hl IHl Hr IHr|a p o e c ns fs E P He IH|a p n E P|a p f s E P Ef];
    intros p' c' ns' fs' H'; inversion H'; subst; try congruence.
  - match goal with E' : h_obj h a = Some (OBin _ _ _) |- _ => rewrite E in E'; injection E' as -> -> -> end.
    match goal with A : holds h l0 _ _ _ _ |- _ => destruct (IHl _ _ _ _ A) as (_ & -> & -> & ->) end.
    match goal with A : holds h r0 _ _ _ _ |- _ => destruct (IHr _ _ _ _ A) as (_ & -> & -> & ->) end.
    auto.
  - match goal with E' : h_obj h a = Some (OUn _ _) |- _ => rewrite E in E'; injection E' as -> -> end.
    match goal with A : holds h e0 _ _ _ _ |- _ => destruct (IH _ _ _ _ A) as (_ & -> & -> & ->) end.
    auto.
  - repeat split; congruence.
  - match goal with E' : h_obj h a = Some (OFeat _) |- _ => rewrite E in E'; injection E' as -> end.
    repeat split; congruence.
Qed.

(** ** The default visitor *)

Lemma visit_list_app {F V} (vi : Z -> V -> bool * V) (vf : F -> V -> bool * V) l1 : forall l2 v,
  visit_list vi vf (l1 ++ l2) v =
  let (b1, v1) := visit_list vi vf l1 v in
  let (b2, v2) := visit_list vi vf l2 v1 in (b1 ++ b2, v2).
Proof.
  induction l1 as [|x l1 IH]; intros l2 v; simpl.
  - destruct (visit_list vi vf l2 v); auto.
  - destruct (match x with inl n => vi n v | inr f => vf f v end) as [b v0]. rewrite IH.
    destruct (visit_list vi vf l1 v0) as [b1 v1]. destruct (visit_list vi vf l2 v1); auto.
Qed.

Lemma visit_all_leaves {F V} (vi : Z -> V -> bool * V) (vf : F -> V -> bool * V) c : forall v,
  visit vi vf c v =
  let (bs, v') := visit_list vi vf (all_leaves c) v in (forallb (fun b => b) bs, v').
Proof.
  induction c as [o l IHl r IHr|o e IH|n|f]; intros v; simpl; auto.
  - rewrite IHl, visit_list_app. destruct (visit_list vi vf (all_leaves l) v) as [b1 v1].
    rewrite IHr. destruct (visit_list vi vf (all_leaves r) v1) as [b2 v2].
    rewrite forallb_app. auto.
  - destruct (vi n v) as [b v1]. simpl. rewrite andb_true_r. auto.
  - destruct (vf f v) as [b v1]. simpl. rewrite andb_true_r. auto.
Qed.

(** ** HTML *)

Lemma html_outermost {F} (name : F -> string) o l r :
  to_html name (CBin o l r) =
  "("%char :: to_string name l ++ escape (binop_text o) ++ to_string name r ++ [")"%char].
Proof. destruct o; reflexivity. Qed.

Lemma html_other {F} (name : F -> string) c : (forall o l r, c <> CBin o l r) ->
  to_html name c = to_string name c.
Proof. destruct c; simpl; auto. intros H. exfalso. eapply H; eauto. Qed.

(** An unescaped place. *)
Definition raw_at (y : text) : Prop :=
  match y with
  | "<"%char :: _ => True
  | ">"%char :: _ => True
  | "&"%char :: " "%char :: _ => True
  | _ => False
  end.
Definition raw (t : text) : Prop := exists x y, t = x ++ y /\ raw_at y.

Lemma raw_at_markup c y : raw_at (c :: y) -> markup c.
Proof.
  unfold markup. destruct c as [[] [] [] [] [] [] [] []]; simpl; try tauto; auto.
Qed.

Lemma raw_cons c t : raw (c :: t) <-> raw_at (c :: t) \/ raw t.
Proof.
  split.
  - intros (x & y & E & R). destruct x as [|d x]; simpl in E; [subst; auto|].
    injection E as _ ->. right. exists x, y. auto.
  - intros [R|(x & y & -> & R)]; [exists [], (c :: t)|exists (c :: x), y]; auto.
Qed.

Lemma raw_nil : ~ raw [].
Proof. intros (x & y & E & R). destruct x; [|discriminate]. simpl in E. subst y. exact R. Qed.

Lemma escaped_not_raw t : well_escaped t -> ~ raw t.
Proof.
  induction 1 as [|c t N _ IH|e t I _ IH].
  - apply raw_nil.
  - rewrite raw_cons. intros [R|R]; auto. apply raw_at_markup in R. auto.
  - simpl in I. destruct I as [<-|[<-|[<-|[]]]]; cbn; rewrite !raw_cons; cbn; tauto.
Qed.

Lemma raw_app_l x t : raw t -> raw (x ++ t).
Proof. intros (a & b & -> & R). exists (x ++ a), b. rewrite app_assoc. auto. Qed.

Lemma raw_at_app y t : raw_at y -> raw_at (y ++ t).
Proof.
  destruct y as [|c y]; [contradiction|]. destruct c as [[] [] [] [] [] [] [] []]; simpl; auto.
  destruct y as [|c y]; [contradiction|]. destruct c as [[] [] [] [] [] [] [] []]; simpl; auto.
Qed.

Lemma raw_app_r x t : raw x -> raw (x ++ t).
Proof. intros (a & b & -> & R). exists a, (b ++ t). rewrite app_assoc. split; auto. apply raw_at_app; auto. Qed.

Lemma markup_op_raw o : markup_op o -> raw (binop_text o).
Proof.
  intros (c & I & M). unfold markup in M.
  destruct o; simpl in I;
  first
   [ exfalso; repeat (destruct I as [<-|I]; [destruct M as [M|[M|M]]; discriminate|]); contradiction
   | apply raw_cons; right; apply raw_cons; left; exact Logic.I
   | apply raw_cons; right; apply raw_cons; right; apply raw_cons; left; exact Logic.I ].
Qed.

Lemma has_markup_raw {F} (name : F -> string) c : has_markup_op c -> raw (to_string name c).
Proof.
  induction c as [o l IHl r IHr|o e IH|n|f]; simpl; try tauto.
  - intros [H|[H|H]]; apply raw_cons; right.
    + apply raw_app_l, raw_app_r, markup_op_raw; auto.
    + apply raw_app_r; auto.
    + apply raw_app_l, raw_app_l, raw_app_r; auto.
  - intros H. apply raw_cons. right. auto.
Qed.

Lemma we_app a b : well_escaped a -> well_escaped b -> well_escaped (a ++ b).
Proof.
  induction 1; simpl; auto.
  - intros. constructor; auto.
  - intros. rewrite <- app_assoc. apply we_entity; auto.
Qed.

Lemma plain_we t : Forall (fun c => ~ markup c) t -> well_escaped t.
Proof. induction 1; constructor; auto. Qed.

Lemma not_markup_dec c : {markup c} + {~ markup c}.
Proof.
  unfold markup. destruct (ascii_dec c "<"), (ascii_dec c ">"), (ascii_dec c "&"); subst;
    solve [left; auto | right; intros [H|[H|H]]; congruence].
Defined.

Lemma digit_not_markup c : is_digit c = true -> ~ markup c.
Proof. intros H [->|[->| ->]]; discriminate. Qed.

Lemma print_not_markup n : Forall (fun c => ~ markup c) (print_Z n).
Proof.
  assert (G : forall k, Forall (fun c => ~ markup c) (print_N k)).
  { intros k. pose proof (print_N_digits k) as D. rewrite forallb_forall in D.
    apply Forall_forall. intros c I. apply digit_not_markup; auto. }
  destruct n; simpl; try apply G. constructor; [|apply G]. intros [H|[H|H]]; discriminate.
Qed.

Lemma plain_string {F} (name : F -> string) c : (forall f, Forall (fun c => ~ markup c) (T (name f))) ->
  ~ has_markup_op c -> Forall (fun c => ~ markup c) (to_string name c).
Proof.
  intros P. induction c as [o l IHl r IHr|o e IH|n|f]; cbn [to_string has_markup_op]; intros N.
  - constructor; [intros [H|[H|H]]; discriminate|].
    apply Forall_app; split; [tauto|]. apply Forall_app; split.
    + apply Forall_forall. intros c I M. apply N. left. exists c. auto.
    + apply Forall_app; split; [tauto|]. constructor; [intros [H|[H|H]]; discriminate|constructor].
  - constructor; auto. destruct o; intros [H|[H|H]]; discriminate.
  - apply print_not_markup.
  - apply P.
Qed.

Lemma escape_we t : well_escaped (escape t).
Proof.
  induction t as [|c t IH]; simpl; [constructor|]. apply we_app; auto.
  unfold escape_char.
  destruct (Ascii.eqb c "<") eqn:E1; [apply (we_entity (T "&lt;") []); simpl; auto; constructor|].
  destruct (Ascii.eqb c ">") eqn:E2; [apply (we_entity (T "&gt;") []); simpl; auto; constructor|].
  destruct (Ascii.eqb c "&") eqn:E3; [apply (we_entity (T "&amp;") []); simpl; auto; constructor|].
  apply Ascii.eqb_neq in E1, E2, E3.
  constructor; [|constructor]. intros [H|[H|H]]; auto.
Qed.

Lemma html_well_escaped {F} (name : F -> string) c :
  (forall f, Forall (fun c => ~ markup c) (T (name f))) ->
  (well_escaped (to_html name c) <-> ~ nested_markup_op c).
Proof.
  intros P. destruct c as [o l r|o e|n|f].
  - rewrite html_outermost. cbn [nested_markup_op]. split.
    + intros W H. apply escaped_not_raw in W. apply W. apply raw_cons. right. destruct H as [H|H].
      * apply raw_app_r, has_markup_raw; auto.
      * apply raw_app_l, raw_app_l, raw_app_r, has_markup_raw; auto.
    + intros N. apply we_plain; [intros [H|[H|H]]; discriminate|].
      apply we_app; [apply plain_we, plain_string; auto|].
      apply we_app; [apply escape_we|].
      apply we_app; [apply plain_we, plain_string; auto|].
      apply we_plain; [intros [H|[H|H]]; discriminate|constructor].
  - cbn [to_html nested_markup_op]. split.
    + intros W H. apply escaped_not_raw in W. apply W. apply (has_markup_raw name (CUn o e)). exact H.
    + intros N. apply plain_we, (plain_string name (CUn o e)); auto.
  - cbn [to_html nested_markup_op]. split; [tauto|]. intros _. apply plain_we, (plain_string name (CInt n)); auto.
  - cbn [to_html nested_markup_op]. split; [tauto|]. intros _. apply plain_we, (plain_string name (CFeat f)); auto.
Qed.

Lemma html_counterexample : exists c : cexpr string,
  Forall identifier (leaves c) /\ ~ well_escaped (to_html (fun s => s) c).
Proof.
  exists (CUn UNot (CBin BAnd (CFeat "a"%string) (CFeat "b"%string))). split.
  - repeat constructor.
    + exists "a"%char, []. repeat split; auto; discriminate.
    + exists "b"%char, []. repeat split; auto; discriminate.
  - intros H. apply escaped_not_raw in H. apply H.
    apply (has_markup_raw (fun s : string => s) (CUn UNot (CBin BAnd (CFeat "a"%string) (CFeat "b"%string)))).
    simpl. left. exists "&"%char. split; [simpl; auto|unfold markup; auto].
Qed.
