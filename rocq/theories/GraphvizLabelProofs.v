(** When the labels of a DOT text are well-formed. *)
From Coq Require Import List ZArith NArith Arith Bool Ascii String Lia Permutation.
From Verif Require Import Text TextProofs ConstraintModel ConstraintSpec ConstraintHeapSpec ConstraintHeapProofs SourceRangeModel.
From Verif Require Import SxfmModel XmlTextSpec XmlTextProofs FeatureTreeModel FeatureTreeSpec FeatureTreeProofs FeatureEditSpec FeatureEditProofs FeatureRemoveProofs FeatureDataProofs.
From Verif Require Import GraphvizModel GraphvizSpec GraphvizProofs GraphvizFinal.
Import ListNotations.
Local Open Scope string_scope.
Local Open Scope list_scope.

(** ** Angle brackets *)
Lemma balanced_app a : forall b, balanced a -> balanced b -> balanced (a ++ b).
Proof.
  intros b A. induction A as [|c t N M A IH|x y X IHx Y IHy]; intros B; cbn [app]; [exact B|constructor; auto|].
  rewrite <- !app_assoc. apply bal_angle; auto.
Qed.
Lemma balanced_plain t : (forall c, In c t -> c <> "<"%char /\ c <> ">"%char) -> balanced t.
Proof.
  induction t as [|c t IH]; intros H; [constructor|]. constructor; [apply (H c); left; reflexivity..|]. apply IH. intros d I. apply H. right. exact I.
Qed.
Lemma balanced_tag n : (forall c, In c n -> c <> "<"%char /\ c <> ">"%char) -> balanced (T "<" ++ n ++ T ">").
Proof. intros H. rewrite <- (app_nil_r (T "<" ++ n ++ T ">")), <- !app_assoc. apply bal_angle; [apply balanced_plain; exact H|constructor]. Qed.
Lemma tag_plain n c : In n tag_names -> In c n -> c <> "<"%char /\ c <> ">"%char.
Proof. intros [<-|[<-|[<-|[<-|[<-|[]]]]]] I; cbn in I; repeat destruct I as [<-|I]; try (split; discriminate); contradiction. Qed.
Lemma we_no_angle t : well_escaped t -> forall c, In c t -> c <> "<"%char /\ c <> ">"%char.
Proof.
  induction 1 as [|c t N W IH|e t I W IH]; intros d J; [contradiction| |].
  - destruct J as [<-|J]; [|auto]. split; intros ->; apply N; [left|right; left]; reflexivity.
  - apply in_app_iff in J. destruct J as [J|J]; [|auto]. destruct I as [<-|[<-|[<-|[]]]]; cbn in J; repeat destruct J as [<-|J]; try (split; discriminate); contradiction.
Qed.
Fixpoint render_balanced (e : html) : html_ok e -> (forall t, In t (html_texts e) -> well_escaped t) -> balanced (render e).
Proof.
  intros O W. destruct e as [t|n a ks|n]; cbn [render].
  - apply balanced_plain, we_no_angle, W. left. reflexivity.
  - assert (In n tag_names /\ (forall c, In c a -> c <> "<"%char /\ c <> ">"%char) /\ Forall html_ok ks) as (In_ & Ia & Ok) by (inversion O; auto).
    assert (balanced (flat_map render ks)) as B.
    { assert (forall t, In t (flat_map html_texts ks) -> well_escaped t) as W' by exact W. clear W O. induction ks as [|k ks IH]; [constructor|]. cbn [flat_map]. apply balanced_app.
      - apply render_balanced; [inversion Ok; assumption|]. intros t I. apply W'. cbn [flat_map]. apply in_app_iff. left. exact I.
      - apply IH; [inversion Ok; assumption|]. intros t I. apply W'. cbn [flat_map]. apply in_app_iff. right. exact I. }
    rewrite (app_assoc n). apply bal_angle.
    + apply balanced_plain. intros c I. apply in_app_iff in I. destruct I as [I|I]; [eapply tag_plain; eassumption|auto].
    + apply balanced_app; [exact B|]. change (T "</" ++ n ++ T ">") with (T "<" ++ (T "/" ++ n) ++ T ">"). apply balanced_tag.
      intros c [<-|I]; [split; discriminate|eapply tag_plain; eassumption].
  - assert (In n tag_names) as In_ by (inversion O; assumption). change (T "/>") with (T "/" ++ T ">"). rewrite (app_assoc n). apply balanced_tag.
    intros c I. apply in_app_iff in I. destruct I as [I|[<-|[]]]; [eapply tag_plain; eassumption|split; discriminate].
Qed.
Lemma label_html rows l : label_of rows l -> Forall well_escaped rows -> html_string l.
Proof.
  intros (e & O & E & ->) W. rewrite Forall_forall in W. exists (render e). split; [|reflexivity]. apply render_balanced; [exact O|]. rewrite E. exact W.
Qed.

(** ** Rows without markup *)
Lemma to_string_ext {F} (f g : F -> string) c : (forall x, In x (leaves c) -> f x = g x) -> to_string f c = to_string g c.
Proof.
  induction c as [o l IHl r IHr|o e IH|n|x]; cbn [to_string leaves]; intros H.
  - rewrite IHl, IHr; [reflexivity|intros x I; apply H; apply in_app_iff; auto..].
  - rewrite IH by exact H. reflexivity.
  - reflexivity.
  - rewrite H; [reflexivity|left; reflexivity].
Qed.
Lemma to_html_ext {F} (f g : F -> string) c : (forall x, In x (leaves c) -> f x = g x) -> to_html f c = to_html g c.
Proof.
  intros H. destruct c as [o l r|o e|n|x]; cbn [to_html]; try (apply to_string_ext; exact H).
  cbn [leaves] in H. rewrite (to_string_ext f g l), (to_string_ext f g r); [reflexivity|intros x I; apply H; apply in_app_iff; auto..].
Qed.
Definition plain_name (s : text) : string := if forallb (fun c => if not_markup_dec c then false else true) s then U s else EmptyString.
Lemma plain_name_plain s : Forall (fun c => ~ markup c) (T (plain_name s)).
Proof.
  unfold plain_name. destruct (forallb _ s) eqn:E; [|constructor]. rewrite T_U. rewrite forallb_forall in E. apply Forall_forall. intros c I. specialize (E c I). destruct (not_markup_dec c); [discriminate|assumption].
Qed.
Lemma plain_name_id s : Forall (fun c => ~ markup c) s -> plain_name s = U s.
Proof.
  intros H. unfold plain_name. replace (forallb _ s) with true; [reflexivity|]. symmetry. apply forallb_forall. rewrite Forall_forall in H. intros c I. specialize (H c I). destruct (not_markup_dec c); [contradiction|reflexivity].
Qed.
Lemma html_plain x : Forall (fun s => Forall (fun c => ~ markup c) s) (leaves x) -> ~ nested_markup_op x -> well_escaped (to_html U x).
Proof.
  intros L N. rewrite (to_html_ext U plain_name).
  - apply html_well_escaped; [apply plain_name_plain|exact N].
  - rewrite Forall_forall in L. intros s I. symmetry. apply plain_name_id. auto.
Qed.
Lemma rows_plain h m t u f rows : without_markup h m t -> subtree u t -> rdata u = NFeature f -> feature_rows h m f rows -> Forall well_escaped rows.
Proof.
  intros [Wt Wc] U D (n & o & xs & cs & ls & Sn & To & Rg & Cs & Ls & ->). destruct (Wt u f U D) as (Pn & Po & Pl). constructor.
  - apply we_app; [apply (sa_markup _ _ Sn), plain_we; exact Pn|]. apply we_app; [apply plain_we; repeat constructor; intros [X|[X|X]]; discriminate|].
    apply we_app; [|apply plain_we; repeat constructor; intros [X|[X|X]]; discriminate]. apply plain_we.
    destruct To as (a & b & E & _). rewrite E in Po. apply Forall_app in Po. destruct Po as (_ & Po). apply Forall_app in Po. tauto.
  - apply Forall_app. split.
    + assert (Forall (fun x => well_escaped (to_html Text.U x)) xs) as Wx.
      { unfold registered in Rg. assert (forall k, In k (f_constraints f) -> forall e x, owned_by m (fst k) e -> spelled_out h e x -> well_escaped (to_html Text.U x)) as Q.
        { intros k Ik e x Ow Sp. destruct (Wc u f k e x U D Ik Ow Sp) as (L & N). apply html_plain; assumption. }
        clear -Rg Q. induction Rg as [|k x ks xs (e & Ow & Sp) Rg IH]; constructor; [eapply Q; [left; reflexivity|eassumption..]|]. apply IH. intros k' I. apply Q. right. exact I. }
      clear -Wx Cs. revert cs Cs. induction Wx as [|x xs W _ IH]; intros cs Cs; inversion Cs as [|a b l1 l2 Sh Cs']; subst; constructor; [apply (sa_markup _ _ Sh); exact W|apply IH; assumption].
    + clear -Pl Ls. revert ls Ls. induction Pl as [|r rs P _ IH]; intros ls Ls; inversion Ls as [|a b l1 l2 Sh Ls']; subst; constructor; [apply (sa_markup _ _ Sh), plain_we; exact P|apply IH; assumption].
Qed.
Lemma nodup_keys {A B} (l : list (A * B)) : NoDup (map fst l) -> forall a b c, In (a, b) l -> In (a, c) l -> b = c.
Proof.
  induction l as [|(x, y) l IH]; cbn [map fst]; intros N a b c I J; [contradiction|]. inversion N as [|? ? Nx Nl]; subst. destruct I as [I|I], J as [J|J].
  - congruence.
  - injection I as -> ->. exfalso. apply Nx. apply (in_map fst) in J. exact J.
  - injection J as -> ->. exfalso. apply Nx. apply (in_map fst) in I. exact I.
  - eapply IH; eauto.
Qed.
Lemma drawn_labels h m t items : NoDup (ids t) -> draws h m t items -> forall i s l, In (i, s, l) (flat_map nodes_in items) -> exists u, subtree u t /\ i = rid u /\ labels h m (rdata u) s l.
Proof.
  intros Nd Dr i s l I. assert (In i (ids t)) as It. { rewrite <- (dr_nodes _ _ _ _ Dr). unfold declared. apply in_map_iff. exists (i, s, l). auto. }
  destruct (ids_subtree i t It) as (u & U & <-). exists u. split; [exact U|]. split; [reflexivity|]. destruct (dr_labels _ _ _ _ Dr u U) as (s' & l' & I' & La).
  assert (forall x : nid * shape * text, x = (fst (fst x), snd (fst x), snd x)) as Eta by (intros ((?, ?), ?); reflexivity).
  assert ((s, l) = (s', l')) as E; [|injection E as -> ->; exact La].
  apply (nodup_keys (map (fun x => (fst (fst x), (snd (fst x), snd x))) (flat_map nodes_in items))) with (a := rid u).
  - rewrite map_map. cbn [fst]. pose proof (dr_nodes _ _ _ _ Dr) as E. unfold declared in E. rewrite E. exact Nd.
  - apply in_map_iff. exists (rid u, s, l). auto.
  - apply in_map_iff. exists (rid u, s', l'). auto.
Qed.
Lemma labels_are_well_formed h m t items : represents h m t -> without_markup h m t -> draws h m t items ->
  forall i l, In (i, Box, l) (flat_map nodes_in items) -> html_string l /\ exists rows, label_of rows l /\ Forall well_escaped rows.
Proof.
  intros R W Dr i l I. destruct (drawn_labels h m t items (rep_ids _ _ _ R) Dr i Box l I) as (u & U & -> & La).
  destruct (rdata u) as [f|[]] eqn:D; cbn [labels] in La; [|destruct La; discriminate..]. destruct La as (_ & rows & Fr & Lo).
  pose proof (rows_plain h m t u f rows W U D Fr) as Ok. split; [eapply label_html; eassumption|]. exists rows. auto.
Qed.

(** ** Labels that are not *)
Definition opening (t : text) : nat := count_occ ascii_dec t "<"%char.
Definition closing (t : text) : nat := count_occ ascii_dec t ">"%char.
Lemma balanced_count t : balanced t -> opening t = closing t.
Proof.
  unfold opening, closing. induction 1 as [|c t N M B IH|a b A IHa B IHb]; [reflexivity| |].
  - rewrite !count_occ_cons_neq by assumption. exact IH.
  - rewrite !count_occ_app, IHa, IHb. cbn. lia.
Qed.
Lemma html_string_count l : html_string l -> opening l = closing l.
Proof. intros (b & B & ->). apply balanced_count in B. unfold opening, closing in *. rewrite !count_occ_app, B. cbn. lia. Qed.
