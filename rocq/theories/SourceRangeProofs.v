(** Proofs about source ranges. *)
From Coq Require Import List Ascii String ZArith NArith Arith Bool Lia.
From Verif Require Import Text TextProofs TextSearch SourceRangeModel SourceRangeSpec.
Import ListNotations.

(** ** Locations *)

Lemma loc_eqb_eq a b : loc_eqb a b = true <-> a = b.
Proof.
  destruct a, b. unfold loc_eqb. simpl. rewrite andb_true_iff, !N.eqb_eq. split.
  - intros [-> ->]. auto.
  - intros H. injection H. auto.
Qed.

Lemma loc_ltb_before a b : loc_ltb a b = true <-> before a b.
Proof.
  unfold loc_ltb, before. rewrite orb_true_iff, andb_true_iff, !N.ltb_lt, N.eqb_eq. tauto.
Qed.

Lemma loc_irrefl a : loc_ltb a a = false.
Proof.
  destruct (loc_ltb a a) eqn:E; auto. apply loc_ltb_before in E. unfold before in E. lia.
Qed.

Lemma loc_trans a b c : loc_ltb a b = true -> loc_ltb b c = true -> loc_ltb a c = true.
Proof. rewrite !loc_ltb_before. unfold before. lia. Qed.

Lemma loc_trichotomy a b : one_of_three (loc_ltb a b) (loc_eqb a b) (loc_gtb a b).
Proof.
  unfold one_of_three, loc_gtb.
  destruct (loc_ltb a b) eqn:E1, (loc_eqb a b) eqn:E2, (loc_ltb b a) eqn:E3; auto; exfalso;
  repeat match goal with
  | H : loc_ltb _ _ = true |- _ => apply loc_ltb_before in H
  | H : loc_eqb _ _ = true |- _ => apply loc_eqb_eq in H; subst
  | H : loc_ltb ?x ?y = false |- _ => assert (~ before x y) by (rewrite <- loc_ltb_before, H; discriminate); clear H
  end; unfold before in *; try lia.
  assert (a <> b) by (intros ->; rewrite (proj2 (loc_eqb_eq b b) eq_refl) in E2; discriminate).
  destruct a as [l c], b as [l' c']. simpl in *.
  assert (l = l') by lia. assert (c = c') by lia. congruence.
Qed.

(** ** Member offsets *)

Lemma colons_nonempty : colons <> [].
Proof. discriminate. Qed.

Lemma split_member_spec t a b : split_member t = Some (a, b) <-> last_part t a b /\ b <> [].
Proof.
  unfold split_member, last_part. rewrite <- split_last_spec. fold colons.
  destruct (split_last colons t) as [[x y]|].
  - destruct y; split.
    + discriminate.
    + intros [H N]. injection H as -> <-. congruence.
    + intros H. injection H as -> <-. split; [auto|discriminate].
    + intros [H _]. auto.
  - split; [discriminate|]. intros [H _]. discriminate.
Qed.

Lemma is_member_offset_spec t : is_member_offset t = true <-> exists a b, last_part t a b /\ b <> [].
Proof.
  unfold is_member_offset. destruct (split_member t) as [[a b]|] eqn:E; split; auto.
  - intros _. exists a, b. apply split_member_spec; auto.
  - discriminate.
  - intros (a & b & H). apply split_member_spec in H. congruence.
Qed.

Lemma class_name_join m : class_name m = join colons (mo_class m).
Proof.
  unfold class_name. destruct (mo_class m) as [|c r]; auto. clear m. revert c.
  induction r as [|d r IH]; intros c.
  - simpl. apply app_nil_r.
  - rewrite join_cons by discriminate. rewrite <- IH. simpl. auto.
Qed.

Lemma split_class_join t : join colons (split_class t) = t.
Proof. unfold split_class. destruct t; auto. apply join_split. Qed.

Lemma split_class_free t : Forall (fun p => ~ occurs colons p) (split_class t).
Proof. unfold split_class. destruct t; [constructor|]. apply split_all_free; auto. discriminate. Qed.

Lemma split_class_nil t : split_class t = [] <-> t = [].
Proof.
  unfold split_class. destruct t; [tauto|]. split; [|discriminate]. intros H.
  exfalso. eapply split_all_nonempty; eauto.
Qed.

Lemma create_spec t m : create_member_offset t = Some m -> 
  member_text m = t /\ last_part t (class_name m) (mo_member m) /\ mo_member m <> [] /\
  Forall (fun p => ~ occurs colons p) (mo_class m).
Proof.
  unfold create_member_offset. destruct (split_member t) as [[a b]|] eqn:E; [|discriminate].
  intros H. injection H as <-. apply split_member_spec in E as [[O L] N].
  unfold member_text. rewrite class_name_join. cbn [mo_class mo_member]. rewrite split_class_join.
  split; [symmetry; exact O|]. split; [split; auto|]. split; auto. apply split_class_free.
Qed.

Lemma create_accepts t : (exists m, create_member_offset t = Some m) <-> is_member_offset t = true.
Proof.
  unfold create_member_offset, is_member_offset. destruct (split_member t) as [[]|]; split; eauto; try discriminate.
  intros [m H]; discriminate.
Qed.

Lemma texts_eqb_eq a b : texts_eqb a b = true <-> a = b.
Proof.
  revert b. induction a as [|x a IH]; destruct b as [|y b]; simpl; split; try discriminate; auto.
  - rewrite andb_true_iff, text_eqb_eq, IH. intros [-> ->]. auto.
  - intros H. injection H as -> ->. rewrite andb_true_iff, text_eqb_eq, IH. auto.
Qed.

Lemma member_eqb_eq a b : member_eqb a b = true <-> a = b.
Proof.
  destruct a, b. unfold member_eqb. simpl. rewrite andb_true_iff, text_eqb_eq, texts_eqb_eq. split.
  - intros [-> ->]; auto.
  - intros H; injection H; auto.
Qed.

Lemma member_eq_text t t' m m' : create_member_offset t = Some m -> create_member_offset t' = Some m' ->
  (member_eqb m m' = true <-> t = t').
Proof.
  intros H H'. rewrite member_eqb_eq. split.
  - intros ->. destruct (create_spec _ _ H) as [<- _]. destruct (create_spec _ _ H') as [<- _]. auto.
  - intros ->. congruence.
Qed.

Lemma nested_spec m n c : nested_class m n = Some c <->
  exists outer inner, mo_class m = outer ++ c :: inner /\ List.length inner = n.
Proof.
  unfold nested_class. destruct (n <? List.length (mo_class m)) eqn:L.
  - apply Nat.ltb_lt in L. split.
    + intros H. apply nth_error_split in H as (l1 & l2 & E & Len). exists l1, l2. split; auto.
      rewrite E, app_length in Len, L. simpl in *. lia.
    + intros (a & b & E & Len). rewrite E, app_length. simpl.
      replace (List.length a + S (List.length b) - n - 1) with (List.length a) by lia.
      rewrite nth_error_app2 by lia. rewrite Nat.sub_diag. reflexivity.
  - apply Nat.ltb_ge in L. split; [discriminate|]. intros (a & b & E & Len).
    rewrite E, app_length in L. simpl in L. lia.
Qed.

(** ** Ranges *)

(** Collapse repeated separators. *)
Fixpoint squeeze (p : text) : text :=
  match p with
  | [] => []
  | c :: r => match r with
              | [] => [c]
              | d :: _ => if Ascii.eqb c "/"%char && Ascii.eqb d "/"%char then squeeze r else c :: squeeze r
              end
  end.

Lemma squeeze_slashes p : squeeze ("/"%char :: "/"%char :: p) = squeeze ("/"%char :: p).
Proof. reflexivity. Qed.

Lemma squeeze_head c p : exists p', squeeze (c :: p) = c :: p'.
Proof.
  revert c. induction p as [|d p IH]; intros c; [exists []; auto|].
  cbn [squeeze]. destruct (Ascii.eqb c "/"%char && Ascii.eqb d "/"%char) eqn:E.
  - apply andb_true_iff in E as [E1 E2]. apply Ascii.eqb_eq in E1, E2. subst. apply IH.
  - eauto.
Qed.

Lemma same_path_squeeze_l p q : same_path (squeeze p) q -> same_path p q.
Proof.
  revert q. induction p as [|c p IH]; intros q; auto.
  destruct p as [|d p]; [auto|].
  cbn [squeeze]. destruct (Ascii.eqb c "/"%char && Ascii.eqb d "/"%char) eqn:E.
  - apply andb_true_iff in E as [E1 E2]. apply Ascii.eqb_eq in E1, E2. subst.
    intros H. apply SP_drop_l. apply IH. exact H.
  - change (same_path (c :: squeeze (d :: p)) q -> same_path (c :: d :: p) q).
    set (s := squeeze (d :: p)) in *. intros H.
    remember (c :: s) as l eqn:El. revert El.
    induction H as [|c' a b H IH2|a b H IH2|a b H IH2]; intros El.
    + discriminate.
    + injection El as -> ->. apply SP_char. apply IH. exact H.
    + injection El as <- Ea. subst s. destruct (squeeze_head d p) as [p' Hp]. rewrite Hp in Ea.
      injection Ea as <- _. simpl in E. discriminate.
    + apply SP_drop_r. apply IH2. exact El.
Qed.

Lemma same_path_sym p q : same_path p q -> same_path q p.
Proof. induction 1; constructor; auto. Qed.

Lemma same_path_refl p : same_path p p.
Proof. induction p; constructor; auto. Qed.

Lemma squeeze_cons_eq c p q : squeeze p = squeeze q -> squeeze (c :: p) = squeeze (c :: q).
Proof.
  intros H. destruct p as [|x p], q as [|y q]; auto.
  - destruct (squeeze_head y q) as [z Hz]. rewrite Hz in H. discriminate.
  - destruct (squeeze_head x p) as [z Hz]. rewrite Hz in H. discriminate.
  - assert (x = y) as -> by (destruct (squeeze_head x p) as [z Hz], (squeeze_head y q) as [z' Hz']; congruence).
    change (squeeze (c :: y :: p)) with (if Ascii.eqb c "/"%char && Ascii.eqb y "/"%char then squeeze (y :: p) else c :: squeeze (y :: p)).
    change (squeeze (c :: y :: q)) with (if Ascii.eqb c "/"%char && Ascii.eqb y "/"%char then squeeze (y :: q) else c :: squeeze (y :: q)).
    rewrite H. auto.
Qed.

Lemma same_path_squeeze p q : same_path p q <-> squeeze p = squeeze q.
Proof.
  split.
  - induction 1; auto. apply squeeze_cons_eq; auto.
  - intros H. apply same_path_squeeze_l. apply same_path_sym, same_path_squeeze_l. rewrite H. apply same_path_refl.
Qed.

(** Splitting at separators. *)
Fixpoint segments (p : text) : list text :=
  match p with
  | [] => [[]]
  | c :: r => if Ascii.eqb c "/"%char then [] :: segments r
              else match segments r with s :: l => (c :: s) :: l | [] => [[c]] end
  end.

Lemma segments_nonempty p : segments p <> [].
Proof.
  destruct p as [|a p]; simpl; [discriminate|]. destruct (Ascii.eqb a "/"%char); [discriminate|].
  destruct (segments p); discriminate.
Qed.

Lemma starts_slash c p : starts_with slash (c :: p) = Ascii.eqb c "/"%char.
Proof.
  unfold slash, T. cbn [list_ascii_of_string starts_with]. rewrite andb_true_r. apply Ascii.eqb_sym.
Qed.

Lemma split_first_segments p : split_first slash p =
  match segments p with
  | s :: _ :: _ => Some (s, skipn (S (List.length s)) p)
  | _ => None
  end.
Proof.
  induction p as [|c p IH]; auto. cbn [split_first segments]. rewrite starts_slash.
  destruct (Ascii.eqb c "/"%char).
  - destruct (segments p) eqn:Sp; auto. exfalso. apply (segments_nonempty p Sp).
  - rewrite IH. destruct (segments p) as [|s [|s' l]]; auto.
Qed.

Lemma segments_single p s : segments p = [s] -> p = s.
Proof.
  revert s. induction p as [|c p IH]; intros s; simpl; [intros H; injection H; auto|].
  destruct (Ascii.eqb c "/"%char).
  - intros H. injection H as _ H. exfalso. apply (segments_nonempty p H).
  - destruct (segments p) as [|x l] eqn:Sp; [exfalso; apply (segments_nonempty p Sp)|].
    intros H. injection H as <- ->. f_equal. auto.
Qed.

Lemma segments_rest p s l : segments p = s :: l -> l <> [] -> segments (skipn (S (List.length s)) p) = l.
Proof.
  revert s. induction p as [|c p IH]; intros s; [intros H N; exfalso; apply N; simpl in H; injection H; auto|].
  simpl segments. destruct (Ascii.eqb c "/"%char).
  - intros H N. injection H as <- H. exact H.
  - destruct (segments p) as [|x l0] eqn:Sp; [exfalso; apply (segments_nonempty p Sp)|].
    intros H N. injection H as <- ->. simpl. apply IH; auto.
Qed.

Lemma split_all_segments n p : List.length p <= n -> split_all n slash p = segments p.
Proof.
  revert p. induction n as [|n IH]; intros p L.
  - destruct p; [auto|simpl in L; lia].
  - cbn [split_all]. rewrite split_first_segments. destruct (segments p) as [|s [|s' l]] eqn:Sp.
    + exfalso. apply (segments_nonempty p Sp).
    + f_equal. apply segments_single; auto.
    + f_equal. rewrite IH by (rewrite skipn_length; lia). eapply segments_rest; eauto. discriminate.
Qed.

Definition nonempty_part (e : text) : bool := negb (text_eqb e []).

Lemma elements_eq p : path_elements p =
  match filter nonempty_part (segments p) with
  | [] => []
  | es => if starts_with slash (rev p) then es ++ [[]] else es
  end.
Proof. unfold path_elements. rewrite split_all_segments by auto. fold nonempty_part.
  change (fun e : text => negb (text_eqb e [])) with nonempty_part.
  destruct (filter nonempty_part (segments p)); reflexivity. Qed.

Lemma ends_cons c d r : starts_with slash (rev (c :: d :: r)) = starts_with slash (rev (d :: r)).
Proof.
  cbn [rev]. destruct (rev r) as [|x l]; cbn [app]; rewrite !starts_slash; reflexivity.
Qed.

Definition cons_elements (c : ascii) (ab : bool) (es : list text) : list text :=
  if Ascii.eqb c "/"%char then es
  else if ab then match es with [] => [[c]; []] | _ => [c] :: es end
       else match es with s :: l => (c :: s) :: l | [] => [[c]] end.

Lemma only_slashes c r : filter nonempty_part (segments (c :: r)) = [] ->
  starts_with slash (rev (c :: r)) = true.
Proof.
  revert c. induction r as [|d r IH]; intros c.
  - cbn [segments]. destruct (Ascii.eqb c "/"%char) eqn:E.
    + intros _. cbn [rev app]. rewrite starts_slash. auto.
    + discriminate.
  - rewrite ends_cons. intros H. apply IH.
    change (segments (c :: d :: r)) with (if Ascii.eqb c "/"%char then [] :: segments (d :: r)
      else match segments (d :: r) with s :: l => (c :: s) :: l | [] => [[c]] end) in H.
    destruct (Ascii.eqb c "/"%char); [exact H|].
    destruct (segments (d :: r)); cbn in H; discriminate.
Qed.

Lemma elements_cons c d r : path_elements (c :: d :: r) =
  cons_elements c (path_absolute (d :: r)) (path_elements (d :: r)).
Proof.
  rewrite !elements_eq, ends_cons. unfold cons_elements, path_absolute. rewrite starts_slash.
  change (segments (c :: d :: r)) with (if Ascii.eqb c "/"%char then [] :: segments (d :: r)
    else match segments (d :: r) with s :: l => (c :: s) :: l | [] => [[c]] end).
  destruct (Ascii.eqb c "/"%char); [reflexivity|].
  destruct (Ascii.eqb d "/"%char) eqn:D.
  - assert (Sd : segments (d :: r) = [] :: segments r) by (simpl; rewrite D; auto).
    pose proof (only_slashes d r) as O. rewrite Sd in *. cbn [filter nonempty_part text_eqb negb] in *.
    change (filter nonempty_part ([c] :: segments r)) with ([c] :: filter nonempty_part (segments r)).
    change (filter nonempty_part ([] :: segments r)) with (filter nonempty_part (segments r)) in *.
    destruct (filter nonempty_part (segments r)) eqn:F.
    + rewrite O by auto. reflexivity.
    + destruct (starts_with slash (rev (d :: r))); reflexivity.
  - assert (exists s l, segments (d :: r) = (d :: s) :: l) as (s & l & ->).
    { simpl. rewrite D. destruct (segments r); eauto. }
    destruct (starts_with slash (rev (d :: r))); reflexivity.
Qed.

Lemma squeeze_cons2 c d r : squeeze (c :: d :: r) =
  if Ascii.eqb c "/"%char && Ascii.eqb d "/"%char then squeeze (d :: r) else c :: squeeze (d :: r).
Proof. reflexivity. Qed.

Lemma path_render p : squeeze p =
  (if path_absolute p then slash else []) ++ join slash (path_elements p).
Proof.
  induction p as [|c p IH]; auto. destruct p as [|d p].
  - rewrite elements_eq. unfold path_absolute. rewrite starts_slash. cbn [squeeze segments].
    destruct (Ascii.eqb_spec c "/"%char) as [->|N]; auto.
    cbn [filter nonempty_part text_eqb negb rev app]. rewrite starts_slash.
    destruct (Ascii.eqb_spec c "/"%char); [congruence|]. reflexivity.
  - rewrite elements_cons, squeeze_cons2, IH. unfold cons_elements, path_absolute. rewrite !starts_slash.
    destruct (Ascii.eqb_spec c "/"%char) as [->|N]; cbn [andb].
    + destruct (Ascii.eqb d "/"%char); auto.
    + destruct (Ascii.eqb d "/"%char).
      * destruct (path_elements (d :: p)); reflexivity.
      * destruct (path_elements (d :: p)) as [|s [|s' l]]; reflexivity.
Qed.

Lemma squeeze_absolute p : path_absolute (squeeze p) = path_absolute p.
Proof.
  destruct p as [|c p]; auto. destruct (squeeze_head c p) as [p' ->].
  unfold path_absolute. rewrite !starts_slash. auto.
Qed.

Lemma squeeze_elements p : path_elements (squeeze p) = path_elements p.
Proof.
  induction p as [|c p IH]; auto. destruct p as [|d p]; auto.
  rewrite squeeze_cons2. rewrite elements_cons. unfold path_absolute. rewrite starts_slash.
  destruct (Ascii.eqb_spec c "/"%char) as [->|N]; cbn [andb].
  - destruct (Ascii.eqb_spec d "/"%char) as [->|N].
    + rewrite IH. reflexivity.
    + destruct (squeeze_head d p) as [p' Hp]. rewrite Hp in *. rewrite elements_cons. rewrite IH. reflexivity.
  - destruct (squeeze_head d p) as [p' Hp]. rewrite Hp in *. rewrite elements_cons. rewrite IH.
    unfold path_absolute. rewrite starts_slash. reflexivity.
Qed.

Lemma path_eqb_spec p q : path_eqb p q = true <-> same_path p q.
Proof.
  unfold path_eqb. rewrite andb_true_iff, texts_eqb_eq, Bool.eqb_true_iff, same_path_squeeze. split.
  - intros [A E]. rewrite !path_render, A, E. auto.
  - intros H. rewrite <- (squeeze_absolute p), <- (squeeze_elements p), H, squeeze_absolute, squeeze_elements. auto.
Qed.

Lemma same_path_trans p q r : same_path p q -> same_path q r -> same_path p r.
Proof. rewrite !same_path_squeeze. congruence. Qed.

Lemma category_eqb_eq a b : category_eqb a b = true <-> a = b.
Proof. destruct a, b; simpl; split; auto; discriminate. Qed.

Lemma opt_eqb_eq {A} (e : A -> A -> bool) : (forall x y, e x y = true <-> x = y) ->
  forall a b, opt_eqb e a b = true <-> a = b.
Proof.
  intros H [x|] [y|]; simpl; split; try discriminate; auto.
  - intros E. apply H in E. congruence.
  - intros E. injection E as ->. apply H; auto.
Qed.

Lemma range_eqb_spec a b : range_eqb a b = true <->
  sr_category a = sr_category b /\ same_path (sr_path a) (sr_path b) /\
  sr_start a = sr_start b /\ sr_end a = sr_end b /\ sr_member a = sr_member b.
Proof.
  unfold range_eqb. rewrite !andb_true_iff, category_eqb_eq, path_eqb_spec.
  rewrite !(opt_eqb_eq _ loc_eqb_eq), (opt_eqb_eq _ member_eqb_eq). tauto.
Qed.

Lemma range_refl a : range_eqb a a = true.
Proof. apply range_eqb_spec. repeat split; auto using same_path_refl. Qed.
Lemma range_sym a b : range_eqb a b = range_eqb b a.
Proof.
  apply eq_true_iff_eq. rewrite !range_eqb_spec. split; intros (? & ? & ? & ? & ?); repeat split; auto using same_path_sym.
Qed.
Lemma range_trans a b c : range_eqb a b = true -> range_eqb b c = true -> range_eqb a c = true.
Proof.
  rewrite !range_eqb_spec. intros (? & ? & ? & ? & ?) (? & ? & ? & ? & ?).
  repeat split; try congruence. eapply same_path_trans; eauto.
Qed.

Lemma range_ignores_revision p s e c m r r' :
  range_eqb (SourceRange p s e c m r) (SourceRange p s e c m r') = true.
Proof. apply range_eqb_spec. repeat split; auto using same_path_refl. Qed.

(** ** Location lists *)

Lemma remove_spec l r l' : remove_location l r = Some l' <->
  exists a x b, first_equal l r x a b /\ l' = a ++ b.
Proof.
  revert l'. induction l as [|y l IH]; intros l'; simpl.
  - split; [discriminate|]. intros (a & x & b & (E & _) & _). destruct a; discriminate.
  - destruct (range_eqb y r) eqn:E.
    + split.
      * intros H. injection H as <-. exists [], y, l. repeat split; auto.
      * intros (a & x & b & (H & X & F) & ->). destruct a as [|z a]; simpl in H; injection H as -> ->; auto.
        inversion F; congruence.
    + destruct (remove_location l r) as [l0|] eqn:R.
      * split.
        -- intros H. injection H as <-. destruct (proj1 (IH l0) eq_refl) as (a & x & b & (-> & X & F) & ->).
           exists (y :: a), x, b. repeat split; auto.
        -- intros (a & x & b & (H & X & F) & ->). destruct a as [|z a]; simpl in H; injection H as -> H; [congruence|].
           f_equal. simpl. f_equal. inversion F; subst.
           assert (Some l0 = Some (a ++ b)) by (apply IH; exists a, x, b; repeat split; auto). congruence.
      * split; [discriminate|]. intros (a & x & b & (H & X & F) & ->).
        destruct a as [|z a]; simpl in H; injection H as -> H; [congruence|]. inversion F; subst.
        assert (None = Some (a ++ b)) by (apply IH; exists a, x, b; repeat split; auto). discriminate.
Qed.

Lemma remove_none l r : remove_location l r = None <-> Forall (fun y => range_eqb y r = false) l.
Proof.
  induction l as [|y l IH]; simpl.
  - split; auto.
  - destruct (range_eqb y r) eqn:E.
    + split; [discriminate|]. intros H; inversion H; congruence.
    + destruct (remove_location l r).
      * split; [discriminate|]. intros H; inversion H; subst. apply IH in H3. discriminate.
      * split; auto. intros _. constructor; auto. apply IH; auto.
Qed.

Lemma update_spec l r n l' : update_location l r n = (true, l') <->
  exists a x b, first_equal l r x a b /\ l' = a ++ n :: b.
Proof.
  revert l'. induction l as [|y l IH]; intros l'; simpl.
  - split; [discriminate|]. intros (a & x & b & (E & _) & _). destruct a; discriminate.
  - destruct (range_eqb y r) eqn:E.
    + split.
      * intros H. injection H as <-. exists [], y, l. repeat split; auto.
      * intros (a & x & b & (H & X & F) & ->). destruct a as [|z a]; simpl in H; injection H as -> ->; auto.
        inversion F; congruence.
    + destruct (update_location l r n) as [[] l0] eqn:R.
      * split.
        -- intros H. injection H as <-. destruct (proj1 (IH l0) eq_refl) as (a & x & b & (-> & X & F) & ->).
           exists (y :: a), x, b. repeat split; auto.
        -- intros (a & x & b & (H & X & F) & ->). destruct a as [|z a]; simpl in H; injection H as -> H; [congruence|].
           f_equal. simpl. f_equal. inversion F; subst.
           assert ((true, l0) = (true, a ++ n :: b)) by (apply IH; exists a, x, b; repeat split; auto). congruence.
      * split; [discriminate|]. intros (a & x & b & (H & X & F) & ->).
        destruct a as [|z a]; simpl in H; injection H as -> H; [congruence|]. inversion F; subst.
        assert ((false, l0) = (true, a ++ n :: b)) by (apply IH; exists a, x, b; repeat split; auto). discriminate.
Qed.

Lemma update_missing l r n : Forall (fun y => range_eqb y r = false) l -> update_location l r n = (false, l).
Proof. induction 1 as [|y l E _ IH]; simpl; auto. rewrite E, IH. auto. Qed.

Lemma add_then_remove l r : Forall (fun y => range_eqb y r = false) l ->
  remove_location (add_location l r) r = Some l.
Proof.
  intros F. apply remove_spec. exists l, r, []. split; [|rewrite app_nil_r; auto].
  repeat split; auto. apply range_refl.
Qed.

Lemma create_accepted t : (exists m, create_member_offset t = Some m) <-> exists a b, last_part t a b /\ b <> [].
Proof. rewrite create_accepts. apply is_member_offset_spec. Qed.

Lemma create_round_trip t m : create_member_offset t = Some m ->
  member_text m = t /\ last_part t (class_name m) (mo_member m) /\ mo_member m <> [] /\
  Forall (fun p => ~ occurs (T "::") p) (mo_class m) /\ class_name m = join (T "::") (mo_class m).
Proof. intros H. destruct (create_spec _ _ H) as (? & ? & ? & ?). split; [auto|]. split; [auto|]. split; [auto|]. split; [auto|]. apply class_name_join. Qed.

Lemma add_location_spec ls r : add_location ls r = ls ++ [r].
Proof. reflexivity. Qed.
