(** Modifications stay within the addresses of their model. *)
From Coq Require Import List Arith Bool Ascii String Permutation Lia.
From Verif Require Import Text ConstraintModel SourceRangeModel FeatureTreeModel FeatureTreeSpec FeatureTreeProofs FeatureTransactionModel
  FeatureEditSpec.
Import ListNotations.

Section Apart.
Variable N : nid.
Variable h0 : heap.

(** Above [N] nothing points below [N], and below [N] nothing has changed since [h0]. *)
Record apart (h : heap) : Prop := Apart {
  ap_ok : heap_ok h;
  ap_next : N <= h_next h;
  ap_parent : forall i c p, N <= i -> h_cells h i = Some c -> n_parent c = Some p -> N <= p;
  ap_edge : forall i c e, N <= i -> h_cells h i = Some c -> In e (n_edges c) -> N <= e;
  ap_same : forall i, i < N -> h_cells h i = h_cells h0 i
}.

Record own (m : fmodel) : Prop := Owned {
  own_root : forall i, m_root m = Some i -> N <= i;
  own_features : forall s i, In (s, i) (m_features m) -> N <= i;
  own_relationships : forall i, In i (m_relationships m) -> N <= i
}.

Lemma own_get m s i : own m -> get_feature m s = Some i -> N <= i.
Proof.
  intros [_ F _] G. unfold get_feature in G. revert F G. induction (m_features m) as [|[k j] l IH]; [discriminate|].
  intros F. cbn [find_name]. destruct (text_eqb k s).
  - intros E. injection E as <-. exact (F k j (or_introl eq_refl)).
  - apply IH. intros s' i' H. exact (F s' i' (or_intror H)).
Qed.

Lemma apart_modify h i f h' :
  apart h -> N <= i -> h_modify h i f = Some h' ->
  (forall c p, n_parent (f c) = Some p -> n_parent c = Some p \/ N <= p) ->
  (forall c e, In e (n_edges (f c)) -> In e (n_edges c) \/ N <= e) ->
  apart h'.
Proof.
  intros [A1 A2 A3 A4 A5] Hi E Fp Fe. unfold h_modify, bind in E.
  destruct (h_cells h i) as [c|] eqn:C; [|discriminate]. injection E as <-.
  assert (L : i < h_next h).
  { destruct (le_lt_dec (h_next h) i) as [G|G]; [|exact G]. rewrite (A1 i G) in C. discriminate. }
  constructor; cbn.
  - intros j Hj. cbn in *. destruct (Nat.eqb_spec j i) as [->|n]; [lia|]. apply A1. exact Hj.
  - exact A2.
  - intros j cj p Hj. destruct (Nat.eqb_spec j i) as [->|n]; intros E P.
    + injection E as <-. destruct (Fp _ _ P) as [P'|P']; [exact (A3 i c p Hi C P')|exact P'].
    + exact (A3 j cj p Hj E P).
  - intros j cj e Hj. destruct (Nat.eqb_spec j i) as [->|n]; intros E P.
    + injection E as <-. destruct (Fe _ _ P) as [P'|P']; [exact (A4 i c e Hi C P')|exact P'].
    + exact (A4 j cj e Hj E P).
  - intros j Hj. destruct (Nat.eqb_spec j i) as [->|n]; [lia|]. apply A5. exact Hj.
Qed.

Lemma apart_set_parent h (i p : nid) h' : apart h -> N <= i -> N <= p -> set_parent h i (Some p) = Some h' -> apart h'.
Proof.
  intros A Hi Hp E. refine (apart_modify h i _ h' A Hi E _ _); cbn; intros c x X.
  - injection X as <-. right. exact Hp.
  - left. exact X.
Qed.

Lemma in_set_insert (i x : nid) l : In x (set_insert i l) -> In x l \/ x = i.
Proof.
  unfold set_insert. destruct (mem i l); [auto|]. intros H. apply in_app_or in H as [H|[H|[]]]; auto.
Qed.

Lemma apart_add_edge h (p c : nid) h' : apart h -> N <= p -> N <= c -> add_edge h p c = Some h' -> apart h'.
Proof.
  intros A Hp Hc E. refine (apart_modify h p _ h' A Hp E _ _); cbn; intros x y X.
  - left. exact X.
  - apply in_set_insert in X as [X| ->]; auto.
Qed.

Lemma apart_remove_edge h (p c : nid) h' : apart h -> N <= p -> remove_edge h p c = Some h' -> apart h'.
Proof.
  intros A Hp E. refine (apart_modify h p _ h' A Hp E _ _); cbn; intros x y X.
  - left. exact X.
  - unfold set_remove in X. apply filter_In in X as [X _]. auto.
Qed.

Lemma apart_link h (p c : nid) h' : apart h -> N <= p -> N <= c -> link h p c = Some h' -> apart h'.
Proof.
  intros A Hp Hc E. unfold link, bind in E. destruct (set_parent h c (Some p)) as [h1|] eqn:E1; [|discriminate].
  exact (apart_add_edge h1 p c h' (apart_set_parent h c p h1 A Hc Hp E1) Hp Hc E).
Qed.

Lemma apart_free h i : apart h -> N <= i -> apart (h_set h i None).
Proof.
  intros [A1 A2 A3 A4 A5] Hi. constructor; cbn.
  - intros j Hj. cbn in *. destruct (Nat.eqb j i); [reflexivity|]. apply A1. exact Hj.
  - exact A2.
  - intros j c p Hj. destruct (Nat.eqb j i); [discriminate|]. exact (A3 j c p Hj).
  - intros j c p Hj. destruct (Nat.eqb j i); [discriminate|]. exact (A4 j c p Hj).
  - intros j Hj. destruct (Nat.eqb_spec j i) as [->|n]; [lia|]. apply A5. exact Hj.
Qed.

Lemma apart_alloc h d i h' : apart h -> h_alloc h (Cell d None []) = (i, h') -> apart h' /\ N <= i.
Proof.
  intros [A1 A2 A3 A4 A5] E. unfold h_alloc in E. injection E as <- <-. split; [|exact A2]. constructor; cbn.
  - intros j Hj. cbn in *. destruct (Nat.eqb_spec j (h_next h)) as [->|n]; [lia|]. apply A1. lia.
  - lia.
  - intros j c p Hj. destruct (Nat.eqb j (h_next h)); [|exact (A3 j c p Hj)]. intros X. injection X as <-. discriminate.
  - intros j c p Hj. destruct (Nat.eqb j (h_next h)); [|exact (A4 j c p Hj)]. intros X. injection X as <-. intros [].
  - intros j Hj. destruct (Nat.eqb_spec j (h_next h)) as [->|n]; [lia|]. apply A5. exact Hj.
Qed.

Lemma apart_modify_feature h i g h' : apart h -> N <= i -> modify_feature h i g = Some h' -> apart h'.
Proof.
  intros A Hi E. unfold modify_feature, bind in E. destruct (h_cells h i) as [c|] eqn:C; [|discriminate].
  destruct (n_data c) as [f|k]; [|discriminate]. destruct (g f) as [f'|]; [|discriminate]. injection E as <-.
  refine (apart_modify h i (fun x => Cell (NFeature f') (n_parent c) (n_edges c)) _ A Hi _ _ _).
  - unfold h_modify. rewrite C. reflexivity.
  - intros x p. cbn. right. exact (ap_parent h A i c p Hi C H).
  - intros x e. cbn. right. exact (ap_edge h A i c e Hi C H).
Qed.

(** Children found from above [N] lie above [N]. *)
Lemma children_apart is_t h : apart h ->
  forall fuel depth n acc l, N <= n -> (forall x, In x acc -> N <= x) ->
  children_impl fuel is_t h depth n acc = Some l -> forall x, In x l -> N <= x.
Proof.
  intros A fuel. induction fuel as [|k IH]; intros depth n acc l Hn Hacc E.
  - destruct depth as [[|d]|]; cbn in E; [|discriminate|discriminate]. injection E as <-. exact Hacc.
  - assert (G : forall es acc l, (forall x, In x es -> N <= x) -> (forall x, In x acc -> N <= x) ->
      fold_left (fun o e =>
            let* a := o in
            let* ce := h_cells h e in
            if is_t (n_data ce) then Some (set_insert e a)
            else children_impl k is_t h (option_map Nat.pred depth) e a) es (Some acc) = Some l ->
      forall x, In x l -> N <= x).
    { induction es as [|e es IHe]; intros acc' l' He Ha F.
      - cbn in F. injection F as <-. exact Ha.
      - cbn [fold_left] in F. cbn [bind] in F.
        match type of F with fold_left ?g es ?o = _ => assert (Hn2 : o <> None) end.
        { intros X. rewrite X in F. clear -F. induction es as [|y es IH]; [discriminate|]. cbn [fold_left] in F. exact (IH F). }
        destruct (h_cells h e) as [ce|]; [|exfalso; apply Hn2; reflexivity]. cbn [bind] in F, Hn2.
        destruct (is_t (n_data ce)).
        + refine (IHe _ _ _ _ F); [intros x X; apply He; right; exact X|].
          intros x X. apply in_set_insert in X as [X| ->]; [apply Ha; exact X|apply He; left; reflexivity].
        + destruct (children_impl k is_t h (option_map Nat.pred depth) e acc') as [a|] eqn:R; [|exfalso; apply Hn2; reflexivity].
          refine (IHe _ _ _ _ F); [intros x X; apply He; right; exact X|].
          refine (IH _ _ _ _ _ Ha R). apply He. left. reflexivity. }
    cbn [children_impl] in E. destruct depth as [[|d]|].
    + injection E as <-. exact Hacc.
    + destruct (h_cells h n) as [c|] eqn:C; [|discriminate]. cbn [bind] in E.
      refine (G _ _ _ _ Hacc E). intros x X. exact (ap_edge h A n c x Hn C X).
    + destruct (h_cells h n) as [c|] eqn:C; [|discriminate]. cbn [bind] in E.
      refine (G _ _ _ _ Hacc E). intros x X. exact (ap_edge h A n c x Hn C X).
Qed.

Variable ord : list nid -> list nid.
Hypothesis ord_ok : is_order ord.

Lemma get_children_apart is_t h n l x :
  apart h -> N <= n -> get_children ord is_t h None n = Some l -> In x l -> N <= x.
Proof.
  intros A Hn E X. unfold get_children, bind in E.
  destruct (children_impl (S (h_next h)) is_t h None n []) as [l'|] eqn:C; [|discriminate]. injection E as <-.
  apply (Permutation_in _ (ord_ok l')) in X.
  exact (children_apart is_t h A _ _ _ _ _ Hn (fun x (f : In x []) => match f with end) C x X).
Qed.

Definition good (w : world) : Prop := apart (fst w) /\ own (snd w).

Lemma own_with_features m fs : own m -> (forall s i, In (s, i) fs -> N <= i) -> own (with_features m fs).
Proof. intros [A B C] F. constructor; cbn; assumption. Qed.
Lemma own_with_relationships m rs : own m -> (forall i, In i rs -> N <= i) -> own (with_relationships m rs).
Proof. intros [A B C] F. constructor; cbn; assumption. Qed.
Lemma own_with_root m r : own m -> (forall i, r = Some i -> N <= i) -> own (with_root m r).
Proof. intros [A B C] F. constructor; cbn; assumption. Qed.

Lemma good_store_feature h m f i h' m' :
  apart h -> own m -> store_feature h m f = Some (i, h', m') -> apart h' /\ own m' /\ N <= i /\ m_root m' = m_root m.
Proof.
  intros A O E. unfold store_feature in E. destruct (get_feature m (f_name f)); [discriminate|].
  destruct (h_alloc h (Cell (NFeature f) None [])) as [j h1] eqn:E1. injection E as <- <- <-.
  destruct (apart_alloc h _ _ _ A E1) as [A' Hj]. split; [exact A'|]. split; [constructor|split; [exact Hj|reflexivity]].
  - cbn. exact (own_root m O).
  - cbn. intros s i H. apply in_app_or in H as [H|[H|[]]]; [exact (own_features m O s i H)|].
    injection H as _ <-. exact Hj.
  - cbn. exact (own_relationships m O).
Qed.

Lemma good_erase_feature h m i w : apart h -> own m -> erase_feature h m i = Some w -> good w.
Proof.
  intros A O E. unfold erase_feature, bind in E. destruct (name_at h i) as [s|]; [|discriminate].
  set (m1 := match m_root m with Some r => if Nat.eqb i r then with_root m None else m | None => m end) in *.
  assert (O1 : own m1).
  { unfold m1. destruct (m_root m) as [r|] eqn:R; [|exact O]. destruct (Nat.eqb i r); [|exact O].
    apply own_with_root; [exact O|discriminate]. }
  destruct (get_feature m s) as [j|] eqn:G; injection E as <-; split; cbn [fst snd]; try assumption.
  - apply apart_free; [exact A|]. exact (own_get m s j O G).
  - apply own_with_features; [exact O1|]. intros t k H. apply filter_In in H as [H _]. exact (own_features m1 O1 t k H).
Qed.

Lemma mem_in (i : nid) l : mem i l = true -> In i l.
Proof. intros H. apply existsb_exists in H as (x & X & E). apply Nat.eqb_eq in E as ->. exact X. Qed.

Lemma good_erase_relationship h m i w : apart h -> own m -> erase_relationship h m i = Some w -> good w.
Proof.
  intros A O E. unfold erase_relationship in E. destruct (mem i (m_relationships m)) eqn:M; [|discriminate].
  injection E as <-. apply mem_in in M. split; cbn [fst snd].
  - apply apart_free; [exact A|]. exact (own_relationships m O i M).
  - apply own_with_relationships; [exact O|]. intros j H. apply filter_In in H as [H _]. exact (own_relationships m O j H).
Qed.

Lemma good_detach h m f w : apart h -> own m -> N <= f -> detach h m f = Some w -> good w.
Proof.
  intros A O Hf E. unfold detach, bind in E. destruct (h_cells h f) as [c|] eqn:C; [|discriminate].
  destruct (n_parent c) as [p|] eqn:P; [|discriminate].
  destruct (remove_edge h p f) as [h1|] eqn:E1; [|discriminate].
  refine (good_erase_feature h1 m f w _ O E).
  refine (apart_remove_edge h p f h1 A _ E1). exact (ap_parent h A f c p Hf C P).
Qed.

(** Folding a step over a list. *)
Lemma fold_good {A} (step : world -> A -> option world) (P : A -> Prop) :
  (forall w a w', good w -> P a -> step w a = Some w' -> good w') ->
  forall l w w', good w -> (forall a, In a l -> P a) ->
  fold_left (fun o a => let* w := o in step w a) l (Some w) = Some w' -> good w'.
Proof.
  intros S l. induction l as [|a l IH]; intros w w' G Pl E.
  - cbn in E. injection E as <-. exact G.
  - cbn [fold_left] in E. cbn [bind] in E. destruct (step w a) as [w1|] eqn:E1.
    + refine (IH w1 w' _ _ E); [exact (S w a w1 G (Pl a (or_introl eq_refl)) E1)|].
      intros b B. apply Pl. right. exact B.
    + exfalso. clear -E. induction l as [|b l IH]; [discriminate|]. cbn [fold_left] in E. exact (IH E).
Qed.

Lemma good_remove_tree fuel : forall w f w', good w -> N <= f -> remove_tree ord fuel w f = Some w' -> good w'.
Proof.
  induction fuel as [|k IH]; intros w f w' G Hf E; [discriminate|].
  cbn [remove_tree] in E. unfold bind in E at 1.
  destruct (child_features ord (fst w) f) as [cs|] eqn:C; [|discriminate].
  unfold bind in E at 1.
  destruct (fold_left (fun o c => let* w := o in remove_tree ord k w c) cs (Some w)) as [w1|] eqn:E1; [|discriminate].
  assert (G1 : good w1).
  { refine (fold_good (fun w c => remove_tree ord k w c) (fun c => N <= c) _ cs w w1 G _ E1).
    - intros a b c. apply IH.
    - intros a Ha. exact (get_children_apart is_feature (fst w) f cs a (proj1 G) Hf C Ha). }
  unfold bind in E at 1.
  destruct (child_relationships ord (fst w1) f) as [rs|] eqn:C2; [|discriminate].
  unfold bind in E at 1.
  destruct (fold_left (fun o r => let* w := o in let* h := remove_edge (fst w) f r in erase_relationship h (snd w) r) rs (Some w1))
    as [w2|] eqn:E2; [|discriminate].
  assert (G2 : good w2).
  { refine (fold_good (fun w r => let* h := remove_edge (fst w) f r in erase_relationship h (snd w) r) (fun c => N <= c) _ rs w1 w2 G1 _ E2).
    - intros a b c [Ga Gb] Hb F. unfold bind in F. destruct (remove_edge (fst a) f b) as [h'|] eqn:F1; [|discriminate].
      refine (good_erase_relationship h' (snd a) b c _ Gb F). exact (apart_remove_edge _ _ _ _ Ga Hf F1).
    - intros a Ha. exact (get_children_apart is_relationship (fst w1) f rs a (proj1 G1) Hf C2 Ha). }
  exact (good_detach (fst w2) (snd w2) f w' (proj1 G2) (proj2 G2) Hf E).
Qed.

Lemma apart_regroup cs : forall h (a b : nid) h', apart h -> N <= a -> N <= b -> (forall c, In c cs -> N <= c) ->
  regroup h a b cs = Some h' -> apart h'.
Proof.
  induction cs as [|c cs IH]; intros h a b h' A Ha Hb Hc E.
  - cbn in E. injection E as <-. exact A.
  - cbn [regroup] in E. unfold bind in E.
    destruct (h_cells h a) as [ca|]; [|discriminate]. destruct (h_cells h c) as [cc|]; [|discriminate].
    destruct (mem c (n_edges ca) && match n_parent cc with Some p => Nat.eqb p a | None => false end); [|discriminate].
    destruct (remove_edge h a c) as [h1|] eqn:E1; [|discriminate].
    destruct (add_edge h1 b c) as [h2|] eqn:E2; [|discriminate].
    destruct (set_parent h2 c (Some b)) as [h3|] eqn:E3; [|discriminate].
    assert (Hc0 : N <= c) by (apply Hc; left; reflexivity).
    refine (IH h3 a b h' _ Ha Hb (fun x X => Hc x (or_intror X)) E).
    exact (apart_set_parent _ _ _ _ (apart_add_edge _ _ _ _ (apart_remove_edge _ _ _ _ A Ha E1) Hb Hc0 E2) Hc0 Hb E3).
Qed.

Lemma apart_connect m cl id c : own m -> forall pos h c' p' h' b,
  apart h -> connect m cl id c pos h = Some (c', p', h', b) -> apart h'.
Proof.
  intros O. induction c as [o l IHl r IHr|o e IH|n|r]; intros pos h c' p' h' b A E; cbn [connect] in E; unfold bind in E.
  - destruct (connect m cl id l pos h) as [[[[l' p1] h1] b1]|] eqn:E1; [|discriminate].
    destruct (connect m cl id r p1 h1) as [[[[r' p2] h2] b2]|] eqn:E2; [|discriminate].
    injection E as _ _ <- _. exact (IHr _ _ _ _ _ _ (IHl _ _ _ _ _ _ A E1) E2).
  - destruct (connect m cl id e pos h) as [[[[l' p1] h1] b1]|] eqn:E1; [|discriminate].
    injection E as _ _ <- _. exact (IH _ _ _ _ _ _ A E1).
  - injection E as _ _ <- _. exact A.
  - destruct (cref_name h r) as [s|]; [|discriminate]. destruct (get_feature m s) as [i|] eqn:G.
    + destruct (modify_feature h i (fun f => Some (register cl id pos f))) as [h1|] eqn:E1; [|discriminate].
      injection E as _ _ <- _. exact (apart_modify_feature h i _ h1 A (own_get m s i O G) E1).
    + injection E as _ _ <- _. exact A.
Qed.

Lemma apart_attach_all cs : forall h (i : nid) h', apart h -> N <= i -> (forall c, In c cs -> N <= c) ->
  attach_all h i cs = Some h' -> apart h'.
Proof.
  induction cs as [|c cs IH]; intros h i h' A Hi Hc E; cbn [attach_all] in E.
  - injection E as <-. exact A.
  - unfold bind in E. destruct (link h i c) as [h1|] eqn:E1; [|discriminate].
    refine (IH h1 i h' _ Hi (fun x X => Hc x (or_intror X)) E).
    exact (apart_link h i c h1 A Hi (Hc c (or_introl eq_refl)) E1).
Qed.
Lemma apart_detach_all cs : forall h (i : nid) h', apart h -> N <= i -> detach_all h i cs = Some h' -> apart h'.
Proof.
  induction cs as [|c cs IH]; intros h i h' A Hi E; cbn [detach_all] in E.
  - injection E as <-. exact A.
  - unfold bind in E. destruct (remove_edge h i c) as [h1|] eqn:E1; [|discriminate].
    refine (IH h1 i h' _ Hi E). exact (apart_remove_edge h i c h1 A Hi E1).
Qed.

(** The pointers a modification is given lie above [N]. *)
Definition ref_apart (r : nref) : Prop := match r with ByName _ => True | ByPtr i => N <= i end.
Definition op_apart (o : op) : Prop :=
  match o with
  | OAddFeature _ p => forall i, p = Some i -> N <= i
  | ORemoveFeature r _ | OAddRelationship _ r | ORemoveRelationship r | OAddLocation r _ | ORemoveLocation r _ => ref_apart r
  | OAddChild p c => ref_apart p /\ ref_apart c
  | OAddConstraint _ _ | OSetName _ | OSetCommit _ | OSetPath _ | OSetRoot _ => True
  end.

Lemma resolve_apart m r i : own m -> ref_apart r -> resolve m r = Some i -> N <= i.
Proof.
  intros O R E. destruct r as [s|j]; cbn in *; [exact (own_get m s i O E)|]. injection E as <-. exact R.
Qed.

Lemma exec_good o w w' e : good w -> op_apart o -> exec ord o w = Some (w', e) -> good w'.
Proof.
  destruct w as [h m]. intros [A O] P E. cbn [fst snd] in A, O. destruct o; cbn [exec op_apart] in E, P.
  - (* add feature *)
    unfold exec_add_feature in E. destruct (store_feature h m f) as [[[i h1] m1]|] eqn:S1.
    + destruct (good_store_feature _ _ _ _ _ _ A O S1) as (A1 & O1 & Hi & _).
      destruct parent as [p|].
      * unfold bind in E. destruct (link h1 p i) as [h2|] eqn:E2; [|discriminate]. injection E as <- _.
        split; [|exact O1]. exact (apart_link _ _ _ _ A1 (P p eq_refl) Hi E2).
      * destruct (m_root m1) as [r|] eqn:R.
        -- unfold bind in E. destruct (link h1 r i) as [h2|] eqn:E2; [|discriminate]. injection E as <- _.
           split; [|exact O1]. exact (apart_link _ _ _ _ A1 (own_root m1 O1 r R) Hi E2).
        -- injection E as <- _. split; assumption.
    + injection E as <- _. split; assumption.
  - (* remove feature *)
    unfold exec_remove_feature in E. destruct (resolve m r) as [f|] eqn:R.
    2: { injection E as <- _. split; assumption. }
    assert (Hf := resolve_apart m r f O P R). destruct recursive.
    + unfold bind in E. destruct (remove_tree ord (S (h_next h)) (h, m) f) as [w|] eqn:E1; [|discriminate].
      injection E as <- _. exact (good_remove_tree _ (h, m) f w (conj A O) Hf E1).
    + unfold bind in E. destruct (child_features ord h f) as [[|c cs]|] eqn:C; [| |discriminate].
      2: { injection E as <- _. split; assumption. }
      destruct (child_relationships ord h f) as [rs|] eqn:C2; [|discriminate].
      destruct (match rs with [] => Some (h, m) | r :: _ => erase_relationship h m r end) as [w1|] eqn:E1; [|discriminate].
      assert (G1 : good w1).
      { destruct rs as [|x rs]; [injection E1 as <-; split; assumption|]. exact (good_erase_relationship h m x w1 A O E1). }
      destruct (detach (fst w1) (snd w1) f) as [w2|] eqn:E2; [|discriminate]. injection E as <- _.
      exact (good_detach _ _ f w2 (proj1 G1) (proj2 G1) Hf E2).
  - (* add relationship *)
    unfold exec_add_relationship, store_relationship in E.
    destruct (h_alloc h (Cell (NRelationship k) None [])) as [i h1] eqn:E1.
    destruct (apart_alloc _ _ _ _ A E1) as [A1 Hi]. unfold bind in E.
    set (m1 := with_relationships m (m_relationships m ++ [i])) in *.
    assert (O1 : own m1).
    { apply own_with_relationships; [exact O|]. intros j H. apply in_app_or in H as [H|[<-|[]]]; [exact (own_relationships m O j H)|exact Hi]. }
    destruct (resolve m1 r) as [p|] eqn:R; [|discriminate]. assert (Hp := resolve_apart m1 r p O1 P R).
    destruct (link h1 p i) as [h2|] eqn:E2; [|discriminate].
    assert (A2 := apart_link _ _ _ _ A1 Hp Hi E2).
    destruct (child_features ord h2 p) as [cs|] eqn:C; [|discriminate].
    destruct (regroup h2 p i cs) as [h3|] eqn:E3; [|discriminate]. injection E as <- _. split; [|exact O1].
    refine (apart_regroup cs h2 p i h3 A2 Hp Hi _ E3). intros c Hc. exact (get_children_apart _ _ _ _ _ A2 Hp C Hc).
  - (* remove relationship *)
    unfold exec_remove_relationship in E. destruct (resolve m r) as [p|] eqn:R.
    2: { injection E as <- _. split; assumption. }
    assert (Hp := resolve_apart m r p O P R). unfold bind in E.
    destruct (child_relationships ord h p) as [[|i rs]|] eqn:C; [discriminate| |discriminate].
    assert (Hi : N <= i) by (refine (get_children_apart _ _ _ _ _ A Hp C _); left; reflexivity).
    destruct (remove_edge h p i) as [h1|] eqn:E1; [|discriminate].
    assert (A1 := apart_remove_edge _ _ _ _ A Hp E1).
    destruct (child_features ord h1 i) as [cs|] eqn:C2; [|discriminate].
    destruct (regroup h1 i p cs) as [h2|] eqn:E2; [|discriminate].
    assert (A2 : apart h2).
    { refine (apart_regroup cs h1 i p h2 A1 Hi Hp _ E2). intros c Hc. exact (get_children_apart _ _ _ _ _ A1 Hi C2 Hc). }
    destruct (erase_relationship h2 m i) as [w|] eqn:E3; [|discriminate]. injection E as <- _.
    exact (good_erase_relationship _ _ _ _ A2 O E3).
  - unfold exec_add_location, bind in E. destruct (resolve m r) as [i|] eqn:R; [|discriminate].
    destruct (modify_feature h i _) as [h1|] eqn:E1; [|discriminate]. injection E as <- _.
    split; [|exact O]. exact (apart_modify_feature _ _ _ _ A (resolve_apart m r i O P R) E1).
  - unfold exec_remove_location in E. unfold bind in E at 1. destruct (resolve m r) as [i|] eqn:R; [|discriminate].
    unfold bind in E at 1.
    match type of E with match ?x with _ => _ end = _ => destruct x as [h1|] eqn:E1; [|discriminate] end. injection E as <- _.
    split; [|exact O]. exact (apart_modify_feature _ _ _ _ A (resolve_apart m r i O P R) E1).
  - (* add constraint *)
    unfold exec_add_constraint, bind in E.
    match type of E with match ?x with _ => _ end = _ => destruct x as [[[[c' q] h1] ok]|] eqn:E1; [|discriminate] end.
    assert (A1 : apart h1).
    { refine (apart_connect m _ _ c O _ _ _ _ _ _ _ E1). destruct A as [B1 B2 B3 B4 B5]. constructor; cbn; try assumption.
      - intros j Hj. cbn in *. apply B1. lia.
      - lia. }
    assert (G : good (h1, store_constraint m k (MConstraint (h_next h) c'))).
    { split; [exact A1|]. destruct O as [O1 O2 O3]. destruct k; constructor; cbn; assumption. }
    destruct ok; injection E as <- _; exact G.
  - injection E as <- _. split; [exact A|]. destruct O. constructor; assumption.
  - injection E as <- _. split; [exact A|]. destruct O. constructor; assumption.
  - injection E as <- _. split; [exact A|]. destruct O. constructor; assumption.
  - (* set root *)
    unfold exec_set_root in E.
    assert (I : match store_feature h m (root_feature s) with
      | None => failure ALREADY_PRESENT (h, m)
      | Some (i, h1, m1) =>
        match m_root m1 with
        | None => success (h1, with_root m1 (Some i))
        | Some r =>
            let* c := h_cells h1 r in
            let* h2 := attach_all h1 i (n_edges c) in
            let* ci := h_cells h2 i in
            let* h3 := detach_all h2 r (n_edges ci) in
            let* (h4, m2) := erase_feature h3 m1 r in
            success (h4, with_root m2 (Some i))
        end end = Some (w', e) -> good w').
    { destruct (store_feature h m (root_feature s)) as [[[i h1] m1]|] eqn:S1.
      2: { intros F. injection F as <- _. split; assumption. }
      destruct (good_store_feature _ _ _ _ _ _ A O S1) as (A1 & O1 & Hi & _).
      destruct (m_root m1) as [r|] eqn:R.
      2: { intros F. injection F as <- _. split; [exact A1|]. apply own_with_root; [exact O1|]. intros j X. injection X as <-. exact Hi. }
      assert (Hr := own_root m1 O1 r R). unfold bind.
      destruct (h_cells h1 r) as [c|] eqn:C; [|discriminate].
      destruct (attach_all h1 i (n_edges c)) as [h2|] eqn:E2; [|discriminate].
      assert (A2 : apart h2).
      { refine (apart_attach_all (n_edges c) h1 i h2 A1 Hi _ E2). intros x X. exact (ap_edge h1 A1 r c x Hr C X). }
      destruct (h_cells h2 i) as [ci|]; [|discriminate].
      destruct (detach_all h2 r (n_edges ci)) as [h3|] eqn:E3; [|discriminate].
      assert (A3 := apart_detach_all _ h2 r h3 A2 Hr E3).
      destruct (erase_feature h3 m1 r) as [[h4 m2]|] eqn:E4; [|discriminate].
      destruct (good_erase_feature _ _ _ _ A3 O1 E4) as [A4 O4]. cbn [fst snd] in A4, O4.
      intros F. injection F as <- _. split; [exact A4|]. apply own_with_root; [exact O4|]. intros j X. injection X as <-. exact Hi. }
    destruct (m_root m) as [r|]; [|exact (I E)]. unfold bind in E at 1. destruct (name_at h r) as [t|]; [|discriminate].
    destruct (text_eqb t s); [|exact (I E)]. injection E as <- _. split; assumption.
  - (* add child *)
    destruct P as [Pp Pc]. unfold exec_add_child in E. destruct (resolve m child) as [c|] eqn:R1.
    2: { injection E as <- _. split; assumption. }
    destruct (resolve m parent) as [p|] eqn:R2.
    2: { injection E as <- _. split; assumption. }
    assert (Hc := resolve_apart m child c O Pc R1). assert (Hp := resolve_apart m parent p O Pp R2).
    destruct (Nat.eqb c p); [injection E as <- _; split; assumption|]. unfold bind in E.
    destruct (h_cells h c) as [cc|] eqn:C; [|discriminate].
    destruct (match n_parent cc with Some q => remove_edge h q c | None => Some h end) as [h1|] eqn:E1; [|discriminate].
    assert (A1 : apart h1).
    { destruct (n_parent cc) as [q|] eqn:Q; [|injection E1 as <-; exact A].
      exact (apart_remove_edge h q c h1 A (ap_parent h A c cc q Hc C Q) E1). }
    destruct (add_edge h1 p c) as [h2|] eqn:E2; [|discriminate].
    destruct (set_parent h2 c (Some p)) as [h3|] eqn:E3; [|discriminate]. injection E as <- _. split; [|exact O].
    exact (apart_set_parent _ _ _ _ (apart_add_edge _ _ _ _ A1 Hp Hc E2) Hc Hp E3).
Qed.

Lemma run_good os : forall w w' e, good w -> Forall op_apart os -> run ord os w = Some (w', e) -> good w'.
Proof.
  induction os as [|o os IH]; intros w w' e G P E; cbn [run] in E.
  - injection E as <- _. exact G.
  - unfold bind in E. destruct (exec ord o w) as [[w1 e1]|] eqn:E1; [|discriminate].
    inversion P as [|? ? P1 P2]; subst. assert (G1 := exec_good o w w1 e1 G P1 E1).
    destruct e1 as [c|]; [injection E as <- _; exact G1|]. exact (IH _ _ _ G1 P2 E).
Qed.

Lemma commit_good t w t' w' e : good w -> Forall op_apart (t_queue t) -> commit_modify ord t w = Some (t', w', e) -> good w'.
Proof.
  intros G P E. unfold commit_modify in E. destruct (t_open t); [|injection E as _ <- _; exact G].
  unfold bind in E. destruct (run ord (t_queue t) w) as [[w1 e1]|] eqn:E1; [|discriminate].
  assert (G1 := run_good _ _ _ _ G P E1). destruct e1 as [c|]; [injection E as _ <- _; exact G1|].
  destruct (consistent (fst w1) (snd w1)); [|discriminate]. injection E as _ <- _. exact G1.
Qed.

(** A builder only queues modifications by name. *)
Definition builder_apart (b : builder) : Prop :=
  Forall op_apart (t_queue (b_features b)) /\ Forall op_apart (t_queue (b_tree b)) /\ Forall op_apart (t_queue (b_relations b)).

Lemma enqueue_apart t o t' : Forall op_apart (t_queue t) -> op_apart o -> enqueue t o = Some t' -> Forall op_apart (t_queue t').
Proof.
  intros F P E. unfold enqueue in E. destruct (t_open t || negb (asserts_model o)); [|discriminate]. injection E as <-. cbn.
  apply Forall_app. split; [exact F|]. constructor; [exact P|constructor].
Qed.

Lemma builder_call_apart b c b' : builder_apart b -> builder_call b c = Some b' -> builder_apart b' /\ b_model b' = b_model b.
Proof.
  destruct b as [m f t r]. intros (F & T & R) E. cbn in F, T, R.
  destruct c; cbn in E; unfold bind in E;
  match type of E with match ?x with _ => _ end = _ => destruct x as [q|] eqn:Q; [|discriminate] end; injection E as <-;
  (split; [|reflexivity]); (split; [|split]); cbn; try assumption; refine (enqueue_apart _ _ _ _ _ Q); try assumption; cbn;
  try exact I; try (split; exact I); discriminate.
Qed.

Lemma builder_calls_apart cs : forall b b', builder_apart b ->
  fold_left (fun o c => let* b := o in builder_call b c) cs (Some b) = Some b' -> builder_apart b' /\ b_model b' = b_model b.
Proof.
  induction cs as [|c cs IH]; intros b b' B E.
  - cbn in E. injection E as <-. split; [exact B|reflexivity].
  - cbn [fold_left] in E. cbn [bind] in E. destruct (builder_call b c) as [b1|] eqn:E1.
    + destruct (builder_call_apart b c b1 B E1) as [B1 M1]. destruct (IH b1 b' B1 E) as [B2 M2].
      split; [exact B2|]. rewrite M2. exact M1.
    + exfalso. clear -E. induction cs as [|b l IH]; [discriminate|]. cbn [fold_left] in E. exact (IH E).
Qed.

End Apart.

Lemma apart_start h : heap_ok h -> apart (h_next h) h h.
Proof.
  intros K. constructor.
  - exact K.
  - exact (le_n _).
  - intros i c p Hi C. rewrite (K i Hi) in C. discriminate.
  - intros i c p Hi C. rewrite (K i Hi) in C. discriminate.
  - reflexivity.
Qed.

Lemma good_new_model h : heap_ok h -> good (h_next h) h (new_model h).
Proof.
  intros K. unfold new_model, new_model_with.
  destruct (h_alloc h (Cell (NFeature (root_feature (T "root"%string))) None [])) as [i h1] eqn:E.
  destruct (apart_alloc (h_next h) h h _ i h1 (apart_start h K) E) as [A Hi]. split; [exact A|].
  constructor; cbn.
  - intros j X. injection X as <-. exact Hi.
  - intros s j [X|[]]. injection X as _ <-. exact Hi.
  - intros j [].
Qed.

Section Copy.
Variable ord : list nid -> list nid.
Hypothesis ord_ok : is_order ord.

Lemma build_calls_good h cs h1 m : heap_ok h -> build_calls ord h cs = Some (h1, m) ->
  apart (h_next h) h h1 /\ forall m', m = Some m' -> own (h_next h) m'.
Proof.
  intros K E. unfold build_calls, builder_start in E.
  assert (G := good_new_model h K). destruct (new_model h) as [ha ma]. unfold bind in E.
  match type of E with match ?x with _ => _ end = _ => destruct x as [b1|] eqn:E1; [|discriminate] end.
  assert (B0 : builder_apart (h_next h) (Builder (Some ma) mtx_start mtx_start mtx_start)) by (repeat split; constructor).
  destruct (builder_calls_apart (h_next h) cs _ b1 B0 E1) as [(F & T & R) M]. cbn in M.
  destruct (build ord ha b1) as [[[h2 m2] b2]|] eqn:E2; [|discriminate]. injection E as <- <-.
  unfold build in E2. rewrite M in E2. unfold bind in E2.
  destruct (commit_modify ord (b_features b1) (ha, ma)) as [[[t1 w1] e1]|] eqn:C1; [|discriminate].
  assert (G1 := commit_good _ _ ord ord_ok _ _ _ _ _ G F C1).
  destruct e1 as [c|]; [injection E2 as <- <- _; split; [exact (proj1 G1)|discriminate]|].
  destruct (commit_modify ord (b_tree b1) w1) as [[[t2 w2] e2]|] eqn:C2; [|discriminate].
  assert (G2 := commit_good _ _ ord ord_ok _ _ _ _ _ G1 T C2).
  destruct e2 as [c|]; [injection E2 as <- <- _; split; [exact (proj1 G2)|discriminate]|].
  destruct (commit_modify ord (b_relations b1) w2) as [[[t3 w3] e3]|] eqn:C3; [|discriminate].
  assert (G3 := commit_good _ _ ord ord_ok _ _ _ _ _ G2 R C3).
  destruct e3 as [c|]; injection E2 as <- <- _; (split; [exact (proj1 G3)|]); [discriminate|].
  intros m' X. injection X as <-. exact (proj2 G3).
Qed.

Variable map_order : list (text * nid) -> list (text * nid).

Lemma clone_good h m h1 m1 : heap_ok h -> clone_model ord map_order h m = Some (h1, m1) -> good (h_next h) h (h1, m1).
Proof.
  intros K E. unfold clone_model, bind in E. destruct (clone_calls map_order h m) as [cs|]; [|discriminate].
  destruct (build_calls ord h cs) as [[h' r]|] eqn:B; [|discriminate]. destruct r as [m'|]; [|discriminate].
  injection E as <- <-. destruct (build_calls_good h cs h' (Some m') K B) as [A O]. split; [exact A|exact (O m' eq_refl)].
Qed.

Definition good_ctx (N : nid) (h0 h : heap) (t : ctx) : Prop :=
  apart N h0 h /\ forall m, x_copy t = Some m -> own N m.

Lemma copy_exec_good N h0 o h t h1 t1 e :
  good_ctx N h0 h t -> copy_exec ord o h t = Some (h1, t1, e) -> good_ctx N h0 h1 t1.
Proof.
  intros [A O] E. unfold copy_exec in E. destruct (x_copy t) as [m|] eqn:M.
  2: { destruct o; try discriminate; injection E as <- <- _; (split; [exact A|]); intros m X; rewrite M in X; discriminate. }
  assert (Om := O m eq_refl).
  match type of E with bind ?x _ = _ => assert (G : forall w1 e1, x = Some (w1, e1) -> good N h0 w1) end.
  { intros w1 e1. assert (W : good N h0 (h, m)) by (split; assumption).
    assert (TR : forall r i, translate h m r = Some (Some i) -> N <= i).
    { intros r i T. unfold translate, bind in T. destruct (resolve m r) as [j|]; [|discriminate].
      destruct (name_at h j) as [s|]; [|discriminate]. injection T as T. exact (own_get N m s i Om T). }
    destruct o.
    - destruct parent as [p|].
      + unfold bind. destruct (name_at h p) as [s|]; [|discriminate]. intros F.
        refine (exec_good N h0 ord ord_ok _ _ _ _ W _ F). cbn. intros i X. exact (own_get N m s i Om X).
      + intros F. refine (exec_good N h0 ord ord_ok _ _ _ _ W _ F). cbn. discriminate.
    - unfold bind. destruct (translate h m r) as [[i|]|] eqn:T; [| |discriminate]; cbn [translated]; intros F.
      + refine (exec_good N h0 ord ord_ok _ _ _ _ W _ F). cbn. exact (TR r i T).
      + injection F as <- _. exact W.
    - unfold bind. destruct (translate h m r) as [[i|]|] eqn:T; [| |discriminate]; cbn [translated]; intros F; [|discriminate].
      refine (exec_good N h0 ord ord_ok _ _ _ _ W _ F). cbn. exact (TR r i T).
    - unfold bind. destruct (translate h m r) as [[i|]|] eqn:T; [| |discriminate]; cbn [translated]; intros F.
      + refine (exec_good N h0 ord ord_ok _ _ _ _ W _ F). cbn. exact (TR r i T).
      + injection F as <- _. exact W.
    - unfold bind. destruct (translate h m r) as [[i|]|] eqn:T; [| |discriminate]; cbn [translated]; intros F; [|discriminate].
      refine (exec_good N h0 ord ord_ok _ _ _ _ W _ F). cbn. exact (TR r i T).
    - unfold bind at 1. destruct (translate h m r) as [[i|]|] eqn:T; [| |discriminate]; cbn [translated]; intros F; [|discriminate].
      refine (exec_good N h0 ord ord_ok _ _ _ _ W _ F). cbn. exact (TR r i T).
    - intros F. refine (exec_good N h0 ord ord_ok _ _ _ _ W _ F). exact I.
    - intros F. refine (exec_good N h0 ord ord_ok _ _ _ _ W _ F). exact I.
    - intros F. refine (exec_good N h0 ord ord_ok _ _ _ _ W _ F). exact I.
    - intros F. refine (exec_good N h0 ord ord_ok _ _ _ _ W _ F). exact I.
    - intros F. refine (exec_good N h0 ord ord_ok _ _ _ _ W _ F). exact I.
    - intros F. injection F as <- _. exact W. }
  unfold bind in E at 1.
  match type of E with match ?x with _ => _ end = _ => destruct x as [[w1 e1]|] eqn:E1; [|discriminate] end.
  destruct (G w1 e1 eq_refl) as [A1 O1]. injection E as <- <- _. split; [exact A1|].
  cbn. intros m' X. injection X as <-. exact O1.
Qed.

Lemma copy_run_good N h0 os : forall h t h1 t1,
  good_ctx N h0 h t -> copy_run ord os h t = Some (h1, t1) -> good_ctx N h0 h1 t1.
Proof.
  induction os as [|o os IH]; intros h t h1 t1 G E; cbn [copy_run] in E.
  - injection E as <- <-. exact G.
  - unfold bind in E. destruct (copy_exec ord o h t) as [[[h2 t2] e]|] eqn:E1; [|discriminate].
    exact (IH h2 t2 h1 t1 (copy_exec_good N h0 o h t h2 t2 e G E1) E).
Qed.

Lemma open_copy_good h m h1 t : heap_ok h -> open_copy ord map_order h m = Some (h1, t) -> good_ctx (h_next h) h h1 t.
Proof.
  intros K E. unfold open_copy, bind in E. destruct (consistent h m) as [[|]|]; [|discriminate|discriminate].
  unfold ctx_start, bind in E. destruct (clone_model ord map_order h m) as [[h' m']|] eqn:C; [|discriminate].
  injection E as <- <-. destruct (clone_good h m h' m' K C) as [A O]. split; [exact A|].
  cbn. intros x X. injection X as <-. exact O.
Qed.

End Copy.

(** A tree in one heap is still there in another that agrees below. *)
Lemma represents_kept h h2 m t :
  represents h m t -> heap_ok h2 -> (forall i, i < h_next h -> h_cells h2 i = h_cells h i) -> represents h2 m t.
Proof.
  intros [R1 R2 R3 R4 R5 R6 R7 R8 R9] K S. constructor; try assumption.
  intros i c X. rewrite S; [exact (R2 i c X)|].
  destruct (le_lt_dec (h_next h) i) as [G|G]; [|exact G].
  assert (C := R2 i c X). rewrite (R1 i G) in C. discriminate.
Qed.

(** Whatever is done with a copy, everything allocated before is as it was, and the copy
    consists of objects allocated since. *)
Lemma copy_isolated ord map_order h m h1 t1 os h2 t2 :
  is_order ord -> heap_ok h ->
  open_copy ord map_order h m = Some (h1, t1) -> copy_run ord os h1 t1 = Some (h2, t2) ->
  heap_ok h2 /\ (forall i, i < h_next h -> h_cells h2 i = h_cells h i) /\
  (forall m', x_copy t2 = Some m' ->
    (forall i, In i (nodes m') -> h_next h <= i) /\
    (forall i c j, h_next h <= i -> h_cells h2 i = Some c -> n_parent c = Some j \/ In j (n_edges c) -> h_next h <= j)).
Proof.
  intros Or K E1 E2. assert (G1 := open_copy_good ord Or map_order h m h1 t1 K E1).
  destruct (copy_run_good ord Or _ _ os h1 t1 h2 t2 G1 E2) as [A O].
  split; [exact (ap_ok _ _ _ A)|]. split; [exact (ap_same _ _ _ A)|].
  intros m' X. destruct (O m' X) as [O1 O2 O3]. split.
  - intros i I. unfold nodes in I. apply in_app_or in I as [I|I]; [|exact (O3 i I)].
    apply in_map_iff in I as ([s j] & <- & I). exact (O2 s j I).
  - intros i c j Hi C [P|P]; [exact (ap_parent _ _ _ A i c j Hi C P)|exact (ap_edge _ _ _ A i c j Hi C P)].
Qed.

Lemma copy_keeps_original ord map_order h m t h1 t1 os h2 t2 :
  is_order ord -> represents h m t ->
  open_copy ord map_order h m = Some (h1, t1) -> copy_run ord os h1 t1 = Some (h2, t2) ->
  represents h2 m t /\ forall i, In i (ids t) -> h_cells h2 i = h_cells h i.
Proof.
  intros Or R E1 E2. assert (K := rep_ok _ _ _ R).
  destruct (copy_isolated ord map_order h m h1 t1 os h2 t2 Or K E1 E2) as (K2 & S & _).
  assert (R2 := represents_kept h h2 m t R K2 S). split; [exact R2|].
  intros i I. apply S. exact (ids_below h None t i K (rep_holds _ _ _ R) I).
Qed.
