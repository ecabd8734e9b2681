(** Substring search and splitting as in llvm::StringRef (find, rfind, split,
    rsplit) and their properties. *)
From Coq Require Import List Ascii String Arith Bool Lia.
From Verif Require Import Text TextProofs.
Import ListNotations.

(** [StringRef::split(Separator)] of one separator: the parts before and after
    the first occurrence. *)
Fixpoint split_first (sep t : text) : option (text * text) :=
  if starts_with sep t then Some ([], skipn (List.length sep) t)
  else match t with
       | [] => None
       | c :: r => match split_first sep r with
                   | Some (a, b) => Some (c :: a, b)
                   | None => None
                   end
       end.

(** [StringRef::rsplit(Separator)]: the parts before and after the last
    occurrence. *)
Fixpoint split_last (sep t : text) : option (text * text) :=
  match t with
  | [] => if starts_with sep [] then Some ([], []) else None
  | c :: r => match split_last sep r with
              | Some (a, b) => Some (c :: a, b)
              | None => if starts_with sep t then Some ([], skipn (List.length sep) t) else None
              end
  end.

(** [StringRef::split(Vector, Separator)]: all parts, empty ones included. *)
Fixpoint split_all (fuel : nat) (sep t : text) : list text :=
  match fuel with
  | 0 => [t]
  | S n => match split_first sep t with
           | Some (a, b) => a :: split_all n sep b
           | None => [t]
           end
  end.

(** Parts joined by a separator. *)
Fixpoint join (sep : text) (ps : list text) : text :=
  match ps with
  | [] => []
  | [p] => p
  | p :: r => p ++ sep ++ join sep r
  end.

(** ** Specification *)

(** [sep] occurs in [t] after [a] and before [b]. *)
Definition occurs_at (sep t a b : text) : Prop := t = a ++ sep ++ b.
Definition occurs (sep t : text) : Prop := exists a b, occurs_at sep t a b.

(** ** Properties *)

Lemma skipn_app_exact {A} (p r : list A) : skipn (List.length p) (p ++ r) = r.
Proof. induction p; simpl; auto. Qed.

Lemma split_first_spec sep t a b : split_first sep t = Some (a, b) <->
  occurs_at sep t a b /\ forall a' b', occurs_at sep t a' b' -> List.length a <= List.length a'.
Proof.
  revert a b. induction t as [|c t IH]; intros a b.
  - simpl. destruct (starts_with sep []) eqn:E.
    + apply starts_with_spec in E as [r E]. symmetry in E. apply app_eq_nil in E as [-> ->].
      split.
      * intros H. injection H as <- <-. split; [reflexivity|simpl; intros; lia].
      * unfold occurs_at. intros [H _]. symmetry in H. apply app_eq_nil in H as [-> H]. simpl in H. subst. reflexivity.
    + split; [discriminate|]. intros [H _]. exfalso. unfold occurs_at in H.
      destruct a; [|discriminate]. simpl in H. symmetry in H. apply app_eq_nil in H as [-> _]. discriminate.
  - cbn [split_first]. destruct (starts_with sep (c :: t)) eqn:E.
    + apply starts_with_spec in E as [r E]. rewrite E, skipn_app_exact. split.
      * intros H. injection H as <- <-. split; [reflexivity|simpl; intros; lia].
      * intros [H L]. specialize (L [] r eq_refl). destruct a; [|simpl in L; lia].
        unfold occurs_at in H. cbn [app] in H. apply app_inv_head in H. subst b. reflexivity.
    + destruct (split_first sep t) as [[a0 b0]|] eqn:F.
      * destruct (proj1 (IH a0 b0) eq_refl) as [O L]. unfold occurs_at in *. split.
        -- intros H. injection H as <- <-. split; [simpl; congruence|].
           intros [|d a'] b' H; [exfalso; assert (starts_with sep (c :: t) = true) by (apply starts_with_spec; eauto); congruence|].
           injection H as _ H. apply L in H. simpl; lia.
        -- intros [H M]. destruct a as [|d a]; [exfalso; assert (starts_with sep (c :: t) = true) by (apply starts_with_spec; eauto); congruence|].
           injection H as <- H.
           assert (X : Some (a0, b0) = Some (a, b)).
           { apply IH. split; auto. intros a' b' H'. specialize (M (c :: a') b'). simpl in M.
             assert (S (List.length a) <= S (List.length a')) by (apply M; congruence). lia. }
           injection X as <- <-. reflexivity.
      * split; [discriminate|]. intros [H M].
        destruct a as [|d a]; [exfalso; assert (starts_with sep (c :: t) = true) by (apply starts_with_spec; eauto); congruence|].
        injection H as <- H. exfalso.
        assert (X : None = Some (a, b)); [|discriminate].
        apply IH. split; auto. intros a' b' H'. specialize (M (c :: a') b').
        assert (S (List.length a) <= S (List.length a')) by (apply M; unfold occurs_at in *; simpl; congruence). lia.
Qed.

Lemma split_first_none sep t : split_first sep t = None <-> ~ occurs sep t.
Proof.
  induction t as [|c t IH].
  - simpl. destruct (starts_with sep []) eqn:E.
    + split; [discriminate|]. intros H. exfalso. apply H. apply starts_with_spec in E as [r E].
      exists [], r. exact E.
    + split; auto. intros _ (a & b & H). unfold occurs_at in H. destruct a; [|discriminate].
      assert (starts_with sep [] = true) by (apply starts_with_spec; eauto). congruence.
  - cbn [split_first]. destruct (starts_with sep (c :: t)) eqn:E.
    + split; [discriminate|]. intros H. exfalso. apply H. apply starts_with_spec in E as [r E].
      exists [], r. exact E.
    + assert (X : occurs sep (c :: t) <-> occurs sep t).
      { split.
        - intros (a & b & H). destruct a as [|d a].
          + exfalso. assert (starts_with sep (c :: t) = true) by (apply starts_with_spec; eauto). congruence.
          + injection H as _ H. exists a, b. exact H.
        - intros (a & b & H). exists (c :: a), b. unfold occurs_at in *. simpl. congruence. }
      rewrite X, <- IH. destruct (split_first sep t) as [[]|]; split; auto; discriminate.
Qed.

Lemma split_last_none sep t : split_last sep t = None <-> ~ occurs sep t.
Proof.
  induction t as [|c t IH].
  - simpl. destruct (starts_with sep []) eqn:E.
    + split; [discriminate|]. intros H. exfalso. apply H. apply starts_with_spec in E as [r E].
      exists [], r. exact E.
    + split; auto. intros _ (a & b & H). unfold occurs_at in H. destruct a; [|discriminate].
      assert (starts_with sep [] = true) by (apply starts_with_spec; eauto). congruence.
  - cbn [split_last]. destruct (split_last sep t) as [[a b]|] eqn:F.
    + split; [discriminate|]. intros H. exfalso.
      assert (N : ~ occurs sep t).
      { intros (a' & b' & O). apply H. exists (c :: a'), b'. unfold occurs_at in *. simpl; congruence. }
      apply IH in N. discriminate.
    + destruct (starts_with sep (c :: t)) eqn:E.
      * split; [discriminate|]. intros H. exfalso. apply H. apply starts_with_spec in E as [r E].
        exists [], r. exact E.
      * split; auto. intros _ (a & b & O). destruct a as [|d a].
        -- assert (starts_with sep (c :: t) = true) by (apply starts_with_spec; eauto). congruence.
        -- injection O as _ O. apply (proj1 IH eq_refl). exists a, b. exact O.
Qed.

Lemma app_eq_len {A} (a b a' b' : list A) : a ++ b = a' ++ b' -> List.length a = List.length a' -> a = a' /\ b = b'.
Proof.
  revert a'. induction a as [|x a IH]; destruct a' as [|y a']; simpl; intros E L; try discriminate; auto.
  injection E as -> E. destruct (IH a' E) as [-> ->]; auto.
Qed.

Lemma split_last_sound sep t a b : split_last sep t = Some (a, b) ->
  occurs_at sep t a b /\ forall a' b', occurs_at sep t a' b' -> List.length a' <= List.length a.
Proof.
  revert a b. induction t as [|c t IH]; intros a b; cbn [split_last].
  - destruct (starts_with sep []) eqn:E; [|discriminate]. intros H. injection H as <- <-.
    apply starts_with_spec in E as [r E]. pose proof E as E'. symmetry in E'. apply app_eq_nil in E' as [-> ->].
    split; [reflexivity|]. intros a' b' H. destruct a'; [simpl; lia|discriminate].
  - destruct (split_last sep t) as [[a0 b0]|] eqn:F.
    + intros H. injection H as <- <-. destruct (IH _ _ eq_refl) as [O L]. split.
      * unfold occurs_at in *. simpl; congruence.
      * intros [|d a'] b' H; simpl; [lia|]. injection H as _ H. apply L in H. lia.
    + destruct (starts_with sep (c :: t)) eqn:E; [|discriminate]. intros H. injection H as <- <-.
      apply starts_with_spec in E as [r E]. split.
      * rewrite E. rewrite skipn_app_exact. reflexivity.
      * intros [|d a'] b' H; simpl; [lia|]. injection H as _ H. exfalso.
        apply (proj1 (split_last_none sep t) F). exists a', b'. exact H.
Qed.

Lemma split_last_spec sep t a b : split_last sep t = Some (a, b) <->
  occurs_at sep t a b /\ forall a' b', occurs_at sep t a' b' -> List.length a' <= List.length a.
Proof.
  split; [apply split_last_sound|]. intros [O L].
  destruct (split_last sep t) as [[a0 b0]|] eqn:F.
  - destruct (split_last_sound _ _ _ _ F) as [O' L']. pose proof (L _ _ O'). pose proof (L' _ _ O).
    unfold occurs_at in *. rewrite O in O'.
    destruct (app_eq_len _ _ _ _ O') as [-> E]; [lia|]. apply app_inv_head in E. congruence.
  - exfalso. apply (proj1 (split_last_none sep t) F). exists a, b. exact O.
Qed.

Lemma split_all_nonempty n sep t : split_all n sep t <> [].
Proof. destruct n; simpl; [discriminate|]. destruct (split_first sep t) as [[]|]; discriminate. Qed.

Lemma join_cons sep p ps : ps <> [] -> join sep (p :: ps) = p ++ sep ++ join sep ps.
Proof. destruct ps; [congruence|reflexivity]. Qed.

Lemma join_split n sep t : join sep (split_all n sep t) = t.
Proof.
  revert t. induction n as [|n IH]; intros t; simpl; auto.
  destruct (split_first sep t) as [[a b]|] eqn:E; auto.
  rewrite join_cons by apply split_all_nonempty. rewrite IH.
  apply split_first_spec in E as [O _]. symmetry. exact O.
Qed.

Lemma split_first_prefix_free sep t a b : sep <> [] -> split_first sep t = Some (a, b) -> ~ occurs sep a.
Proof.
  intros N E (x & y & O). apply split_first_spec in E as [O' L]. unfold occurs_at in *. subst a.
  specialize (L x (y ++ sep ++ b)). rewrite !app_length in L.
  assert (List.length x + (List.length sep + List.length y) <= List.length x).
  { apply L. rewrite O'. rewrite <- !app_assoc. reflexivity. }
  destruct sep; [congruence|simpl in *; lia].
Qed.

Lemma split_all_free sep : sep <> [] -> forall n t, List.length t <= n ->
  Forall (fun p => ~ occurs sep p) (split_all n sep t).
Proof.
  intros N. induction n as [|n IH]; intros t L; simpl.
  - constructor; [|constructor]. destruct t; [|simpl in L; lia].
    intros (a & b & O). unfold occurs_at in O. destruct a; [|discriminate].
    destruct sep; [congruence|discriminate].
  - destruct (split_first sep t) as [[a b]|] eqn:E.
    + constructor; [eapply split_first_prefix_free; eauto|]. apply IH.
      apply split_first_spec in E as [O _]. unfold occurs_at in O. subst t. rewrite !app_length in L.
      destruct sep; [congruence|simpl in L; lia].
    + constructor; [apply split_first_none; auto|constructor].
Qed.
