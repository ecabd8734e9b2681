(** Facts about trees on the heap, child queries, sorting and iteration. *)
From Coq Require Import List Arith Bool Ascii Sorted Permutation Lia.
From Verif Require Import Text TextProofs FeatureTreeModel FeatureTreeSpec.
Import ListNotations.

Lemma tree_ind' (P : tree -> Prop) :
  (forall n d ts, Forall P ts -> P (Node n d ts)) -> forall t, P t.
Proof.
  intros IH. fix F 1. intros [n d ts]. apply IH.
  induction ts as [|t r R]; constructor; [apply F|exact R].
Qed.

Lemma bind_some {A B} (o : option A) (f : A -> option B) b :
  bind o f = Some b -> exists a, o = Some a /\ f a = Some b.
Proof. destruct o as [a|]; [|discriminate]. intros H. exists a. split; [reflexivity|exact H]. Qed.

(** ** Texts *)
Lemma text_ltb_spec a b : text_ltb a b = true <-> text_lt a b.
Proof.
  revert b. induction a as [|x a IH]; intros [|y b]; simpl.
  - split; intros H; [discriminate|inversion H].
  - split; intros H; [constructor|reflexivity].
  - split; intros H; [discriminate|inversion H].
  - destruct (Nat.ltb_spec (code x) (code y)) as [L|L].
    + split; intros H; [apply lt_head; exact L|reflexivity].
    + destruct (Nat.ltb_spec (code y) (code x)) as [G|G].
      * split; intros H; [discriminate|]. inversion H; subst; lia.
      * assert (E : x = y) by (apply code_inj; lia). subst y.
        rewrite IH. split; intros H; [apply lt_tail; exact H|].
        inversion H; subst; [lia|assumption].
Qed.

Lemma text_lt_irrefl a : ~ text_lt a a.
Proof. induction a as [|c a IH]; intros H; inversion H; subst; [lia|auto]. Qed.

Lemma text_lt_trans a b c : text_lt a b -> text_lt b c -> text_lt a c.
Proof.
  intros H. revert c. induction H as [x t|x y t u L|x t u H IH]; intros c K; inversion K; subst.
  - constructor.
  - constructor.
  - apply lt_head. lia.
  - apply lt_head. assumption.
  - apply lt_head. assumption.
  - apply lt_tail. auto.
Qed.

Lemma text_lt_total a b : text_lt a b \/ a = b \/ text_lt b a.
Proof.
  revert b. induction a as [|x a IH]; intros [|y b].
  - auto.
  - left; constructor.
  - right; right; constructor.
  - destruct (lt_eq_lt_dec (code x) (code y)) as [[L|E]|G].
    + left; apply lt_head; exact L.
    + apply code_inj in E. subst y. destruct (IH b) as [H|[H|H]].
      * left; apply lt_tail; exact H.
      * subst; auto.
      * right; right; apply lt_tail; exact H.
    + right; right; apply lt_head; exact G.
Qed.

Lemma text_ltb_false a b : text_ltb a b = false <-> text_lt b a \/ b = a.
Proof.
  rewrite <- not_true_iff_false, text_ltb_spec. split.
  - intros N. destruct (text_lt_total a b) as [H|[H|H]]; [contradiction|auto|auto].
  - intros [H|<-] K; [exact (text_lt_irrefl _ (text_lt_trans _ _ _ K H))|exact (text_lt_irrefl _ K)].
Qed.

Lemma text_ltb_irrefl a : text_ltb a a = false.
Proof. apply text_ltb_false. auto. Qed.

(** ** Lists *)
Lemma mem_spec i l : mem i l = true <-> In i l.
Proof.
  unfold mem. rewrite existsb_exists. split.
  - intros (x & I & E). apply Nat.eqb_eq in E. subst. exact I.
  - intros I. exists i. split; [exact I|apply Nat.eqb_refl].
Qed.
Lemma mem_false i l : mem i l = false <-> ~ In i l.
Proof. rewrite <- not_true_iff_false, mem_spec. tauto. Qed.

Lemma set_insert_new i l : ~ In i l -> set_insert i l = l ++ [i].
Proof. intros N. unfold set_insert. apply mem_false in N. rewrite N. reflexivity. Qed.
Lemma set_insert_in i l : In i l -> set_insert i l = l.
Proof. intros N. unfold set_insert. apply mem_spec in N. rewrite N. reflexivity. Qed.
Lemma in_set_insert x i l : In x (set_insert i l) <-> x = i \/ In x l.
Proof.
  destruct (in_dec Nat.eq_dec i l) as [I|N].
  - rewrite set_insert_in by exact I. split; [auto|]. intros [->|H]; auto.
  - rewrite set_insert_new by exact N. rewrite in_app_iff. simpl. intuition.
Qed.
Lemma nodup_set_insert i l : NoDup l -> NoDup (set_insert i l).
Proof.
  intros D. destruct (in_dec Nat.eq_dec i l) as [I|N].
  - rewrite set_insert_in; assumption.
  - rewrite set_insert_new by exact N. apply NoDup_Add with (a := i) (l := l).
    + pose proof (Add_app i l []) as A. rewrite app_nil_r in A. exact A.
    + split; assumption.
Qed.
Lemma in_set_remove x i l : In x (set_remove i l) <-> In x l /\ x <> i.
Proof.
  unfold set_remove. rewrite filter_In, negb_true_iff, Nat.eqb_neq. intuition.
Qed.
Lemma set_remove_absent i l : ~ In i l -> set_remove i l = l.
Proof.
  induction l as [|x l IH]; intros N; [reflexivity|]. simpl.
  destruct (Nat.eqb_spec i x) as [->|E]; [exfalso; apply N; left; reflexivity|].
  simpl. f_equal. apply IH. intros I. apply N. right. exact I.
Qed.
Lemma set_remove_app i l r : set_remove i (l ++ r) = set_remove i l ++ set_remove i r.
Proof. apply filter_app. Qed.
Lemma set_remove_mid i l r : ~ In i (l ++ r) -> set_remove i (l ++ i :: r) = l ++ r.
Proof.
  intros N. rewrite in_app_iff in N. rewrite set_remove_app. simpl. rewrite Nat.eqb_refl. simpl.
  rewrite !set_remove_absent by tauto. reflexivity.
Qed.
Lemma nodup_set_remove i l : NoDup l -> NoDup (set_remove i l).
Proof. apply NoDup_filter. Qed.

Lemma nodup_app {A} (l r : list A) :
  NoDup (l ++ r) <-> NoDup l /\ NoDup r /\ (forall x, In x l -> In x r -> False).
Proof.
  induction l as [|a l IH]; simpl.
  - split; [intros D; repeat split; [constructor|exact D|tauto]|tauto].
  - split.
    + intros D. inversion D as [|? ? N D']; subst. apply IH in D'. destruct D' as (D1 & D2 & D3).
      rewrite in_app_iff in N. repeat split; [constructor; tauto|exact D2|].
      intros x [->|I] J; [tauto|eauto].
    + intros (D1 & D2 & D3). inversion D1 as [|? ? N D']; subst. constructor.
      * rewrite in_app_iff. intros [I|I]; [tauto|]. eapply D3; [left; reflexivity|exact I].
      * apply IH. repeat split; [exact D'|exact D2|]. intros x I J. eapply D3; [right; exact I|exact J].
Qed.

Lemma nodup_flat_map_in {A B} (f : A -> list B) l a : NoDup (flat_map f l) -> In a l -> NoDup (f a).
Proof.
  induction l as [|b l IH]; [intros _ []|]. simpl. intros D I. apply nodup_app in D.
  destruct D as (D1 & D2 & _). destruct I as [->|I]; [exact D1|auto].
Qed.

Lemma nodup_flat_map_disjoint {A B} (f : A -> list B) l1 a l2 b l3 x :
  NoDup (flat_map f (l1 ++ a :: l2 ++ b :: l3)) -> In x (f a) -> In x (f b) -> False.
Proof.
  rewrite !flat_map_app. simpl. rewrite !flat_map_app. simpl. intros D I J.
  apply nodup_app in D. destruct D as (_ & D & _). apply nodup_app in D.
  destruct D as (_ & _ & D). apply (D x I). rewrite !in_app_iff. auto.
Qed.

Lemma permutation_flat_map {A B} (f : A -> list B) l r :
  Permutation l r -> Permutation (flat_map f l) (flat_map f r).
Proof.
  intros H. induction H as [|x l r H IH|x y l|l m r H1 IH1 H2 IH2]; simpl.
  - constructor.
  - apply Permutation_app_head. exact IH.
  - rewrite !app_assoc. apply Permutation_app_tail. apply Permutation_app_comm.
  - eapply perm_trans; eassumption.
Qed.

(** ** Trees on the heap *)
Lemma entries_ids p t : map fst (entries p t) = ids t.
Proof.
  revert p. induction t as [n d ts IH] using tree_ind'. intros p. simpl. f_equal.
  induction ts as [|t r R]; [reflexivity|]. simpl. inversion IH as [|? ? I1 I2]; subst.
  rewrite map_app, I1, R by exact I2. reflexivity.
Qed.

Lemma rid_in_ids t : In (rid t) (ids t).
Proof. destruct t. left. reflexivity. Qed.

Lemma holds_root h p n d ts : holds h p (Node n d ts) -> h_cells h n = Some (Cell d p (map rid ts)).
Proof. intros H. apply H. left. reflexivity. Qed.

Lemma holds_top h p t : holds h p t -> h_cells h (rid t) = Some (Cell (rdata t) p (map rid (kids t))).
Proof. destruct t as [n d ts]. apply holds_root. Qed.

Lemma holds_kid h p n d ts t : holds h p (Node n d ts) -> In t ts -> holds h (Some n) t.
Proof.
  intros H I i c E. apply H. right. apply in_flat_map. exists t. auto.
Qed.

Lemma holds_node h p n d ts :
  h_cells h n = Some (Cell d p (map rid ts)) -> (forall t, In t ts -> holds h (Some n) t) ->
  holds h p (Node n d ts).
Proof.
  intros C K i c [E|I].
  - injection E as <- <-. exact C.
  - apply in_flat_map in I. destruct I as (t & It & Ie). exact (K t It i c Ie).
Qed.

Lemma ids_kid n d ts t x : In t ts -> In x (ids t) -> In x (ids (Node n d ts)).
Proof. intros I X. right. apply in_flat_map. exists t. auto. Qed.

Lemma holds_live h p t i : holds h p t -> In i (ids t) -> exists c, h_cells h i = Some c /\ In (i, c) (entries p t).
Proof.
  intros H I. rewrite <- (entries_ids p t) in I. apply in_map_iff in I.
  destruct I as ((j & c) & E & I). simpl in E. subst j. exists c. split; [apply H; exact I|exact I].
Qed.

Lemma ids_below h p t i : heap_ok h -> holds h p t -> In i (ids t) -> i < h_next h.
Proof.
  intros O H I. destruct (holds_live h p t i H I) as (c & C & _).
  destruct (le_lt_dec (h_next h) i) as [L|L]; [|exact L]. rewrite (O i L) in C. discriminate.
Qed.

Lemma nodup_bounded (l : list nat) n : NoDup l -> (forall i, In i l -> i < n) -> length l <= n.
Proof.
  intros D B. rewrite <- (seq_length n 0). apply NoDup_incl_length; [exact D|].
  intros i I. apply in_seq. specialize (B i I). lia.
Qed.

Lemma ids_length h p t : heap_ok h -> holds h p t -> NoDup (ids t) -> length (ids t) <= h_next h.
Proof. intros O H D. apply nodup_bounded; [exact D|]. intros i. apply (ids_below h p t i O H). Qed.

(** The number of levels of a tree. *)
Fixpoint height (t : tree) : nat :=
  match t with Node _ _ ts => S (fold_right Nat.max 0 (map height ts)) end.

Lemma height_kid n d ts t : In t ts -> height t < height (Node n d ts).
Proof.
  simpl. induction ts as [|u r IH]; [intros []|]. intros [->|I]; simpl; [lia|]. specialize (IH I). lia.
Qed.

Lemma height_ids t : height t <= length (ids t).
Proof.
  induction t as [n d ts IH] using tree_ind'. simpl. apply le_n_S.
  induction ts as [|t r R]; [apply Nat.le_refl|]. inversion IH as [|? ? I1 I2]; subst.
  simpl. rewrite app_length. specialize (R I2). lia.
Qed.

(** ** Child queries *)
Lemma tops_ids is_t t x : In x (map rid (tops is_t t)) -> In x (ids t).
Proof.
  revert x. induction t as [n d ts IH] using tree_ind'. intros x. cbn [tops]. destruct (is_t d).
  - intros [<-|[]]. left. reflexivity.
  - intros I. right. apply in_map_iff in I. destruct I as (u & <- & I).
    apply in_flat_map in I. destruct I as (t & It & Iu). apply in_flat_map. exists t. split; [exact It|].
    rewrite Forall_forall in IH. apply (IH t It). apply in_map. exact Iu.
Qed.

Lemma flat_map_tops_ids is_t ts x : In x (map rid (flat_map (tops is_t) ts)) -> In x (flat_map ids ts).
Proof.
  intros I. apply in_map_iff in I. destruct I as (u & <- & I). apply in_flat_map in I.
  destruct I as (t & It & Iu). apply in_flat_map. exists t. split; [exact It|].
  apply (tops_ids is_t). apply in_map. exact Iu.
Qed.

Lemma tops_subtree is_t t u : In u (tops is_t t) -> subtree u t /\ is_t (rdata u) = true.
Proof.
  induction t as [n d ts IH] using tree_ind'. cbn [tops]. destruct (is_t d) eqn:E.
  - intros [<-|[]]. split; [constructor|exact E].
  - intros I. apply in_flat_map in I. destruct I as (t & It & Iu). rewrite Forall_forall in IH.
    destruct (IH t It Iu) as (S1 & S2). split; [|exact S2]. eapply sub_kid; eauto.
Qed.

Lemma children_impl_S fuel is_t h n acc :
  children_impl (S fuel) is_t h None n acc =
  (let* c := h_cells h n in
   fold_left (fun o e =>
            let* a := o in
            let* ce := h_cells h e in
            if is_t (n_data ce) then Some (set_insert e a)
            else children_impl fuel is_t h None e a)
            (n_edges c) (Some acc)).
Proof. reflexivity. Qed.

Lemma children_impl_tree is_t h : forall n d ts p fuel acc,
  holds h p (Node n d ts) -> height (Node n d ts) <= fuel ->
  NoDup (acc ++ flat_map ids ts) ->
  children_impl fuel is_t h None n acc = Some (acc ++ map rid (flat_map (tops is_t) ts)).
Proof.
  intros n d ts. remember (Node n d ts) as t eqn:Et. revert n d ts Et.
  induction t as [n0 d0 ts0 IH] using tree_ind'. intros n d ts Et p fuel acc. injection Et as <- <- <-.
  intros H L D. destruct fuel as [|k]; [simpl in L; lia|].
  rewrite children_impl_S. rewrite (holds_root _ _ _ _ _ H). cbn [bind n_edges].
  assert (K : forall t, In t ts0 -> holds h (Some n0) t /\ height t <= k).
  { intros t It. split; [exact (holds_kid _ _ _ _ _ _ H It)|].
    pose proof (height_kid n0 d0 ts0 t It). lia. }
  clear H L. revert acc D. induction ts0 as [|t r R]; intros acc D.
  - simpl. rewrite app_nil_r. reflexivity.
  - inversion IH as [|? ? I1 I2]; subst.
    destruct (K t (or_introl eq_refl)) as (Ht & Lt).
    destruct t as [m e us]. cbn [map rid fold_left].
    cbn [bind]. rewrite (holds_root _ _ _ _ _ Ht). cbn [bind n_data].
    cbn [flat_map ids] in D. cbn [flat_map tops].
    destruct (is_t e) eqn:E.
    + rewrite set_insert_new.
      * rewrite R.
        -- cbn [app map rid]. rewrite <- app_assoc. reflexivity.
        -- exact I2.
        -- intros u Iu. apply K. right. exact Iu.
        -- rewrite <- app_assoc. simpl. rewrite nodup_app in *. destruct D as (D1 & D2 & D3).
           simpl in D2. inversion D2 as [|? ? N D2']; subst. apply nodup_app in D2'.
           destruct D2' as (_ & D2' & _). rewrite in_app_iff in N. repeat split; [exact D1|constructor; tauto|].
           intros x I J. apply (D3 x I). simpl in *. rewrite in_app_iff. tauto.
      * intros I. apply nodup_app in D. destruct D as (_ & _ & D). apply (D m I). left. reflexivity.
    + rewrite (I1 m e us eq_refl (Some n0) k acc Ht Lt).
      * rewrite R.
        -- rewrite <- app_assoc, map_app. reflexivity.
        -- exact I2.
        -- intros u Iu. apply K. right. exact Iu.
        -- rewrite <- app_assoc. rewrite nodup_app in *. destruct D as (D1 & D2 & D3).
           simpl in D2. inversion D2 as [|? ? N D2']; subst. apply nodup_app in D2'.
           destruct D2' as (D4 & D5 & D6). repeat split; [exact D1| |].
           ++ apply nodup_app. repeat split; [|exact D5|].
              ** clear - D4. induction us as [|u us IH]; [constructor|].
                 cbn [flat_map] in *. apply nodup_app in D4. destruct D4 as (D7 & D8 & D9).
                 rewrite map_app. apply nodup_app. repeat split.
                 --- clear - D7. induction u as [q f vs IH] using tree_ind'.
                     cbn [tops]. destruct (is_t f); [repeat constructor; intros []|].
                     cbn [ids] in D7. inversion D7 as [|? ? _ D]; subst. clear D7.
                     induction vs as [|v vs J]; [constructor|]. inversion IH as [|? ? K1 K2]; subst.
                     cbn [flat_map] in *. apply nodup_app in D. destruct D as (D7 & D8 & D9).
                     rewrite map_app. apply nodup_app. repeat split; [apply K1; exact D7|apply J; assumption|].
                     intros x Ix Jx. apply (D9 x); [exact (tops_ids _ _ _ Ix)|exact (flat_map_tops_ids _ _ _ Jx)].
                 --- apply IH. exact D8.
                 --- intros x Ix Jx. apply (D9 x); [exact (tops_ids _ _ _ Ix)|exact (flat_map_tops_ids _ _ _ Jx)].
              ** intros x Ix Jx. apply (D6 x); [exact (flat_map_tops_ids _ _ _ Ix)|exact Jx].
           ++ intros x I J. apply (D3 x I). simpl. rewrite in_app_iff in *. destruct J as [J|J]; [|auto].
              right. left. exact (flat_map_tops_ids _ _ _ J).
      * rewrite nodup_app in *. destruct D as (D1 & D2 & D3). inversion D2 as [|? ? N D2']; subst.
        apply nodup_app in D2'. destruct D2' as (D4 & _ & _). repeat split; [exact D1|exact D4|].
        intros x I J. apply (D3 x I). simpl. rewrite in_app_iff. auto.
Qed.

Section Ord.
Variable ord : list nid -> list nid.

Lemma get_children_tree is_t h p n d ts :
  heap_ok h -> holds h p (Node n d ts) -> NoDup (ids (Node n d ts)) ->
  get_children ord is_t h None n = Some (ord (map rid (flat_map (tops is_t) ts))).
Proof.
  intros O H D. unfold get_children. rewrite (children_impl_tree is_t h n d ts p _ [] H).
  - reflexivity.
  - pose proof (height_ids (Node n d ts)). pose proof (ids_length h p _ O H D). lia.
  - simpl in *. inversion D; assumption.
Qed.
End Ord.

(** Child queries on any heap. *)
Definition depth_le (k : nat) (depth : option nat) : Prop :=
  match depth with Some d => k <= d | None => True end.

Lemma children_impl_spec is_t h : forall fuel depth n acc l,
  children_impl fuel is_t h depth n acc = Some l ->
  (forall x, In x l <-> In x acc \/ exists k, nearest h is_t n k x /\ depth_le k depth) /\
  (NoDup acc -> NoDup l).
Proof.
  induction fuel as [|fuel IH]; intros depth n acc l H.
  - destruct depth as [[|dp]|]; simpl in H; [|discriminate|discriminate].
    injection H as <-. split; [|auto]. intros x. split; [auto|].
    intros [I|(k & N & L)]; [exact I|]. simpl in L. inversion N; lia.
  - destruct (match depth with Some 0 => true | _ => false end) eqn:Z.
    { destruct depth as [[|dp]|]; try discriminate. simpl in H. injection H as <-. split; [|auto].
      intros x. split; [auto|]. intros [I|(k & N & L)]; [exact I|]. simpl in L. inversion N; lia. }
    assert (H' : (let* c := h_cells h n in
       fold_left (fun o e => let* a := o in let* ce := h_cells h e in
            if is_t (n_data ce) then Some (set_insert e a)
            else children_impl fuel is_t h (option_map Nat.pred depth) e a)
            (n_edges c) (Some acc)) = Some l).
    { destruct depth as [[|dp]|]; [discriminate|exact H|exact H]. }
    clear H. apply bind_some in H'. destruct H' as (c & C & H).
    assert (P : forall es acc l, incl es (n_edges c) ->
      fold_left (fun o e => let* a := o in let* ce := h_cells h e in
            if is_t (n_data ce) then Some (set_insert e a)
            else children_impl fuel is_t h (option_map Nat.pred depth) e a) es (Some acc) = Some l ->
      (forall x, In x l <-> In x acc \/ exists e ce, In e es /\ h_cells h e = Some ce /\
          ((is_t (n_data ce) = true /\ x = e) \/
           (is_t (n_data ce) = false /\ exists k, nearest h is_t e k x /\ depth_le (S k) depth))) /\
      (NoDup acc -> NoDup l)).
    { clear H l acc. induction es as [|e es IHes]; intros acc l Inc F.
      - simpl in F. injection F as <-. split; [|auto]. intros x. split; [auto|].
        intros [I|(e & ce & [] & _)]. exact I.
      - cbn [fold_left bind] in F.
        destruct (h_cells h e) as [ce|] eqn:Ce.
        2:{ cbn [bind] in F. exfalso. clear - F. induction es as [|e' es IHes]; [discriminate|]. simpl in F. auto. }
        cbn [bind] in F. destruct (is_t (n_data ce)) eqn:T.
        + apply IHes in F; [|intros y Iy; apply Inc; right; exact Iy]. destruct F as (F1 & F2). split.
          * intros x. rewrite F1, in_set_insert. split.
            -- intros [[->|I]|(e' & ce' & I & Rest)]; [|auto|].
               ++ right. exists e, ce. split; [left; reflexivity|]. split; [exact Ce|]. left. auto.
               ++ right. exists e', ce'. split; [right; exact I|exact Rest].
            -- intros [I|(e' & ce' & [->|I] & Ce' & Rest)]; [auto| |].
               ++ rewrite Ce in Ce'. injection Ce' as <-. rewrite T in Rest.
                  destruct Rest as [(_ & ->)|(X & _)]; [auto|discriminate].
               ++ right. exists e', ce'. auto.
          * intros D. apply F2. apply nodup_set_insert. exact D.
        + destruct (children_impl fuel is_t h (option_map Nat.pred depth) e acc) as [a|] eqn:R.
          2:{ exfalso. clear - F. induction es as [|e' es IHes]; [discriminate|]. simpl in F. auto. }
          apply IH in R. destruct R as (R1 & R2).
          apply IHes in F; [|intros y Iy; apply Inc; right; exact Iy]. destruct F as (F1 & F2). split.
          * intros x. rewrite F1, R1. split.
            -- intros [[I|(k & N & L)]|(e' & ce' & I & Rest)]; [auto| |].
               ++ right. exists e, ce. split; [left; reflexivity|]. split; [exact Ce|]. right.
                  split; [exact T|]. exists k. split; [exact N|].
                  destruct depth as [[|dp]|]; simpl in *; [discriminate|lia|exact Logic.I].
               ++ right. exists e', ce'. split; [right; exact I|exact Rest].
            -- intros [I|(e' & ce' & [->|I] & Ce' & Rest)]; [auto| |].
               ++ rewrite Ce in Ce'. injection Ce' as <-. rewrite T in Rest.
                  destruct Rest as [(X & _)|(_ & k & N & L)]; [discriminate|].
                  left. right. exists k. split; [exact N|].
                  destruct depth as [[|dp]|]; simpl in *; [discriminate|lia|exact Logic.I].
               ++ right. exists e', ce'. auto.
          * auto. }
    apply P in H; [|apply incl_refl]. destruct H as (H1 & H2). split; [|exact H2].
    intros x. rewrite H1. apply or_iff_compat_l. split.
    + intros (e & ce & I & Ce & [(T & ->)|(T & k & N & L)]).
      * exists 1. split; [exact (near_here h is_t n c e ce C I Ce T)|].
        destruct depth as [[|dp]|]; simpl; [discriminate|lia|exact Logic.I].
      * exists (S k). split; [exact (near_below h is_t n c e ce k x C I Ce T N)|exact L].
    + intros (k & N & L). inversion N as [n' c' x' cx C' I Cx T|n' c' y cy k' x' C' I Cy T N']; subst.
      * rewrite C in C'. injection C' as <-. exists x, cx. auto.
      * rewrite C in C'. injection C' as <-. exists y, cy. split; [exact I|]. split; [exact Cy|]. right.
        split; [exact T|]. exists k'. auto.
Qed.
