(** Proofs about whole SXFM documents. *)
From Coq Require Import List ZArith NArith Arith Bool Ascii String Lia.
From Verif Require Import Text TextProofs ConstraintModel FeatureTreeModel FeatureTransactionModel SxfmModel XmlModel SxfmDocModel SxfmDocSpec.
Import ListNotations.
Local Open Scope string_scope.
Local Open Scope list_scope.

Lemma eqb_true a b : text_eqb a b = true -> a = b. Proof. apply text_eqb_eq. Qed.
Lemma eqb_same a : text_eqb a a = true. Proof. apply text_eqb_eq. reflexivity. Qed.

Lemma blanks_iff t : forallb is_space t = true <-> blanks t.
Proof.
  rewrite forallb_forall. unfold blanks, is_space.
  split; intros H c I; specialize (H c I); cbn [In] in *; revert H; rewrite ?orb_true_iff, ?andb_true_iff, ?Nat.eqb_eq, ?Nat.leb_le; lia.
Qed.

Lemma many_iff s l : fits (PMany s) l = true <-> Forall (fun x => x = T s) l.
Proof.
  unfold fits. cbn [eat].
  set (many := fix many (l : list text) : list (list text) := l :: match l with x :: r => if text_eqb x (T s) then many r else [] | [] => [] end).
  induction l as [|x r IH].
  - split; [constructor|reflexivity].
  - change (many (x :: r)) with ((x :: r) :: if text_eqb x (T s) then many r else []). cbn [existsb orb].
    destruct (text_eqb x (T s)) eqn:E.
    + apply eqb_true in E. subst x. rewrite IH. split; intros H; [constructor; auto|inversion H; auto].
    + split; [discriminate|]. intros H. inversion H. subst. rewrite eqb_same in E. discriminate.
Qed.

Definition model_particle : particle := sequence [PMaybe (PTag "meta"); PTag "feature_tree"] (PMaybe (PTag "constraints")).
Lemma model_iff l : fits model_particle l = true <->
  exists ms cs, l = ms ++ T "feature_tree" :: cs /\ (ms = [] \/ ms = [T "meta"]) /\ (cs = [] \/ cs = [T "constraints"]).
Proof.
  split.
  - unfold fits, model_particle. cbn [sequence eat].
    assert (A : forall r, existsb (fun r => match r with [] => true | _ => false end) (flat_map (fun l => l :: match l with x :: r => if text_eqb x (T "constraints") then [r] else [] | [] => [] end)
        (match r with x :: r => if text_eqb x (T "feature_tree") then [r] else [] | [] => [] end)) = true ->
        exists cs, r = T "feature_tree" :: cs /\ (cs = [] \/ cs = [T "constraints"])).
    { intros [|x r]; [discriminate|]. destruct (text_eqb x (T "feature_tree")) eqn:E; [|discriminate]. apply eqb_true in E. subst x.
      cbn [flat_map app]. rewrite app_nil_r. destruct r as [|y r]; [intros _; eauto|].
      destruct (text_eqb y (T "constraints")) eqn:E; [|discriminate]. apply eqb_true in E. subst y. destruct r; [eauto|discriminate]. }
    cbn [flat_map]. rewrite existsb_app. intros H. apply orb_true_iff in H. destruct H as [H|H].
    + destruct (A _ H) as (cs & -> & C). exists [], cs. auto.
    + destruct l as [|x r]; [discriminate|]. destruct (text_eqb x (T "meta")) eqn:E; [|discriminate]. apply eqb_true in E. subst x.
      cbn [flat_map] in H. rewrite app_nil_r in H. destruct (A _ H) as (cs & -> & C). exists [T "meta"], cs. auto.
  - intros (ms & cs & -> & [-> | ->] & [-> | ->]); reflexivity.
Qed.

(** ** Attributes *)
Lemma attributes_none e : sxfm_attributes (tag e) = [] -> (sxfm_attributes_ok e = true <-> attributes e = []).
Proof.
  unfold sxfm_attributes_ok. intros ->. cbn [existsb forallb]. rewrite andb_true_r. destruct (attributes e); cbn; split; congruence.
Qed.
Lemma attributes_one e k q : sxfm_attributes (tag e) = [(k, q)] -> NoDup (map fst (attributes e)) ->
  (sxfm_attributes_ok e = true <-> exists o, attributes e = given k o /\ (q = true -> o <> None)).
Proof.
  unfold sxfm_attributes_ok. intros ->. cbn [existsb forallb fst snd]. rewrite andb_true_r. intros N. split.
  - intros H. apply andb_true_iff in H. destruct H as [F R]. destruct (attributes e) as [|[x v] [|[y w] r]].
    + exists None. split; [reflexivity|]. intros ->. discriminate.
    + cbn [forallb fst] in F. rewrite !andb_true_r, orb_false_r in F. apply eqb_true in F. subst x. exists (Some v). split; [reflexivity|discriminate].
    + exfalso. cbn [forallb fst] in F. rewrite !orb_false_r in F. apply andb_true_iff in F. destruct F as [A F]. apply andb_true_iff in F. destruct F as [B _].
      apply eqb_true in A, B. subst x y. inversion N as [|? ? I _]. apply I. left. reflexivity.
  - intros (o & -> & Q). destruct o as [v|]; cbn [given forallb existsb fst].
    + rewrite eqb_same. destruct q; reflexivity.
    + destruct q; [|reflexivity]. destruct (Q eq_refl). reflexivity.
Qed.

(** ** Elements *)
Lemma valid_unfold e : sxfm_valid e =
  sxfm_attributes_ok e && match sxfm_declaration_of (tag e) with
    | None => false | Some OnlyText => match elems e with [] => true | _ => false end
    | Some (Below p) => forallb is_space (body e) && fits p (map tag (elems e)) end && forallb sxfm_valid (elems e).
Proof. destruct e. reflexivity. Qed.

Lemma is_data_iff e : well_formed e -> (sxfm_valid e = true /\ tag e = T "data" <-> is_data e).
Proof.
  intros W. split.
  - destruct e as [n a b es]. intros [V E]. cbn [tag] in E. subst n. rewrite valid_unfold in V. inversion W as [? ? ? ? N _]. subst.
    apply andb_true_iff in V. destruct V as [V _]. apply andb_true_iff in V. destruct V as [A V].
    apply (attributes_one (Elem (T "data") a b es) "name" true eq_refl N) in A. destruct A as (o & A & Q). cbn [attributes] in A. subst a.
    cbn in V. destruct es; [|discriminate]. destruct o as [v|]; [constructor|destruct (Q eq_refl); reflexivity].
  - intros D. inversion D. subst. split; reflexivity.
Qed.
Lemma is_meta_iff e : well_formed e -> (sxfm_valid e = true /\ tag e = T "meta" <-> is_meta e).
Proof.
  intros W. split.
  - destruct e as [n a b es]. intros [V E]. cbn [tag] in E. subst n. rewrite valid_unfold in V. inversion W as [? ? ? ? N F]. subst.
    apply andb_true_iff in V. destruct V as [V L]. apply andb_true_iff in V. destruct V as [A V].
    apply (attributes_none (Elem (T "meta") a b es) eq_refl) in A. cbn [attributes] in A. subst a.
    change (sxfm_declaration_of (tag (Elem (T "meta") [] b es))) with (Some (Below (PMany "data"))) in V. cbv beta iota in V.
    cbn [body elems] in V, L. apply andb_true_iff in V. destruct V as [B V]. apply many_iff in V. constructor; [apply blanks_iff; exact B|].
    rewrite Forall_forall in *. rewrite forallb_forall in L. intros x I. apply is_data_iff; [auto|]. split; [auto|]. apply V. apply in_map. exact I.
  - intros D. destruct D as [b ds B F]. split; [|reflexivity]. rewrite valid_unfold.
    change (sxfm_declaration_of (tag (Elem (T "meta") [] b ds))) with (Some (Below (PMany "data"))). cbv beta iota. cbn [body elems].
    apply andb_true_iff. split.
    + apply andb_true_iff. split; [reflexivity|]. apply andb_true_iff. split; [apply blanks_iff; exact B|]. apply many_iff.
      rewrite Forall_forall in *. intros x I. apply in_map_iff in I. destruct I as (y & <- & I). destruct (F y I). reflexivity.
    + apply forallb_forall. rewrite Forall_forall in F. intros x I. destruct (F x I). reflexivity.
Qed.
Lemma is_tree_iff e : well_formed e -> (sxfm_valid e = true /\ tag e = T "feature_tree" <-> exists i b, e = Elem (T "feature_tree") (given "indentation_string" i) b []).
Proof.
  intros W. split.
  - destruct e as [n a b es]. intros [V E]. cbn [tag] in E. subst n. rewrite valid_unfold in V. inversion W as [? ? ? ? N _]. subst.
    apply andb_true_iff in V. destruct V as [V _]. apply andb_true_iff in V. destruct V as [A V].
    apply (attributes_one (Elem (T "feature_tree") a b es) "indentation_string" false eq_refl N) in A. destruct A as (o & A & _). cbn [attributes] in A. subst a.
    cbn in V. destruct es; [|discriminate]. eauto.
  - intros (i & b & ->). destruct i; split; reflexivity.
Qed.
Lemma is_constraints_iff e : sxfm_valid e = true /\ tag e = T "constraints" <-> exists b, e = Elem (T "constraints") [] b [].
Proof.
  split.
  - destruct e as [n a b es]. intros [V E]. cbn [tag] in E. subst n. rewrite valid_unfold in V.
    apply andb_true_iff in V. destruct V as [V _]. apply andb_true_iff in V. destruct V as [A V].
    apply (attributes_none (Elem (T "constraints") a b es) eq_refl) in A. cbn [attributes] in A. subst a.
    cbn in V. destruct es; [|discriminate]. eauto.
  - intros (b & ->). split; reflexivity.
Qed.
Lemma is_model_iff e : well_formed e -> (sxfm_valid e = true /\ tag e = T "feature_model" <-> exists n i t c, sxfm_document n i t c e).
Proof.
  intros W. split.
  - destruct e as [n a b es]. intros [V E]. cbn [tag] in E. subst n. rewrite valid_unfold in V. inversion W as [? ? ? ? N F]. subst.
    apply andb_true_iff in V. destruct V as [V L]. apply andb_true_iff in V. destruct V as [A V].
    apply (attributes_one (Elem (T "feature_model") a b es) "name" false eq_refl N) in A. destruct A as (o & A & _). cbn [attributes] in A. subst a.
    change (sxfm_declaration_of (tag (Elem (T "feature_model") (given "name" o) b es))) with (Some (Below model_particle)) in V. cbv beta iota in V.
    cbn [body elems] in V, L. apply andb_true_iff in V. destruct V as [B V]. apply model_iff in V. destruct V as (ms & cs & V & M & C).
    rewrite forallb_forall in L. rewrite Forall_forall in F.
    destruct (map_eq_app _ _ _ _ V) as (es1 & es2 & -> & E1 & E2). destruct es2 as [|f es2]; [discriminate|]. cbn [map] in E2. injection E2 as Ef E2.
    assert (X : exists i t, f = Elem (T "feature_tree") (given "indentation_string" i) t []).
    { apply is_tree_iff; [apply F|split; [apply L|exact Ef]]; apply in_or_app; right; left; reflexivity. }
    destruct X as (i & t & ->). exists o, i, t.
    assert (M' : es1 = [] \/ exists m, es1 = [m] /\ is_meta m).
    { destruct M as [-> | ->]; [left; destruct es1; [reflexivity|discriminate]|]. right. destruct es1 as [|m [|]]; [discriminate| |discriminate]. injection E1 as E1.
      exists m. split; [reflexivity|]. apply is_meta_iff; [apply F; left; reflexivity|]. split; [apply L; left; reflexivity|exact E1]. }
    destruct C as [-> | ->].
    + destruct es2; [|discriminate]. exists None. apply (sxfm_document_elem o i t None b es1); [apply blanks_iff; exact B|exact M'].
    + destruct es2 as [|c [|]]; [discriminate| |discriminate]. injection E2 as E2.
      assert (Y : exists x, c = Elem (T "constraints") [] x []).
      { apply is_constraints_iff. split; [apply L|exact E2]. apply in_or_app. right. right. left. reflexivity. }
      destruct Y as (x & ->). exists (Some x). apply (sxfm_document_elem o i t (Some x) b es1); [apply blanks_iff; exact B|exact M'].
  - intros (n & i & t & c & D). destruct D as [b ms B M]. split; [|reflexivity]. rewrite valid_unfold.
    match goal with |- context [sxfm_declaration_of (tag ?x)] => change (sxfm_declaration_of (tag x)) with (Some (Below model_particle)) end. cbv beta iota. cbn [body elems].
    assert (Ms : forallb sxfm_valid ms = true /\ (map tag ms = [] \/ map tag ms = [T "meta"])).
    { destruct M as [-> |(m & -> & M)]; [split; [reflexivity|left; reflexivity]|].
      destruct M as [b' ds B' F]. split; [|right; reflexivity]. cbn [forallb]. rewrite andb_true_r.
      rewrite valid_unfold. change (sxfm_declaration_of (tag (Elem (T "meta") [] b' ds))) with (Some (Below (PMany "data"))). cbv beta iota. cbn [body elems].
      apply andb_true_iff. split.
      - apply andb_true_iff. split; [reflexivity|]. apply andb_true_iff. split; [apply blanks_iff; exact B'|]. apply many_iff.
        rewrite Forall_forall in *. intros x I. apply in_map_iff in I. destruct I as (y & <- & I). destruct (F y I). reflexivity.
      - apply forallb_forall. rewrite Forall_forall in F. intros x I. destruct (F x I). reflexivity. }
    destruct Ms as [V Ts]. rewrite forallb_app, V. apply andb_true_iff. split.
    + apply andb_true_iff. split; [destruct n; reflexivity|]. apply andb_true_iff. split; [apply blanks_iff; exact B|]. apply model_iff.
      exists (map tag ms), (match c with Some _ => [T "constraints"] | None => [] end). split; [|split; [exact Ts|destruct c; auto]].
      rewrite map_app. destruct c; reflexivity.
    + destruct i, c; reflexivity.
Qed.

(** The documents that are valid. *)
Theorem valid_iff e : well_formed e -> (sxfm_valid e = true <-> (exists n i t c, sxfm_document n i t c e) \/ exists o, sxfm_fragment o e).
Proof.
  intros W. split.
  - intros V. assert (D : sxfm_declaration_of (tag e) <> None).
    { intros D. rewrite valid_unfold, D, andb_false_r in V. discriminate. }
    unfold sxfm_declaration_of, sxfm_declarations in D. cbn [find fst] in D.
    destruct (text_eqb (tag e) (T "feature_model")) eqn:E; [apply eqb_true in E; left; apply is_model_iff; auto|].
    right. destruct (text_eqb (tag e) (T "meta")) eqn:E1; [apply eqb_true in E1; exists None; constructor; apply is_meta_iff; auto|].
    destruct (text_eqb (tag e) (T "data")) eqn:E2.
    { apply eqb_true in E2. assert (X : is_data e) by (apply is_data_iff; auto). destruct X. eexists. constructor. }
    destruct (text_eqb (tag e) (T "feature_tree")) eqn:E3.
    { apply eqb_true in E3. assert (X : exists i b, e = Elem (T "feature_tree") (given "indentation_string" i) b []) by (apply is_tree_iff; auto).
      destruct X as (i & b & ->). exists None. apply fragment_tree. }
    destruct (text_eqb (tag e) (T "constraints")) eqn:E4; [|destruct (D eq_refl)].
    apply eqb_true in E4. assert (X : exists b, e = Elem (T "constraints") [] b []) by (apply is_constraints_iff; auto). destruct X as (b & ->). exists None. apply fragment_constraints.
  - intros [X|(o & X)]; [apply is_model_iff in X; tauto|]. destruct X as [n b|e M|i b|b]; [reflexivity| |destruct i; reflexivity|reflexivity].
    apply is_meta_iff in M; tauto.
Qed.

Lemma is_meta_tag m : is_meta m -> tag m = T "meta".
Proof. intros []. reflexivity. Qed.
(** The parts of a document. *)
Lemma document_parts e n i t c : sxfm_document n i t c e ->
  attr "name" e = n /\ filter (is_tag "feature_tree") (elems e) = [Elem (T "feature_tree") (given "indentation_string" i) t []] /\
  filter (is_tag "constraints") (elems e) = match c with Some x => [Elem (T "constraints") [] x []] | None => [] end.
Proof.
  intros D. destruct D as [b ms B M]. cbn [elems]. rewrite !filter_app.
  assert (F : filter (is_tag "feature_tree") ms = [] /\ filter (is_tag "constraints") ms = []).
  { destruct M as [-> |(m & -> & M)]; [auto|]. cbn [filter]. unfold is_tag. rewrite (is_meta_tag m M). auto. }
  destruct F as [-> ->]. split; [destruct n; reflexivity|]. destruct c; split; reflexivity.
Qed.
Lemma given_inj k o o' : given k o = given k o' -> o = o'.
Proof. destruct o, o'; cbn; congruence. Qed.
(** What a document says is determined. *)
Theorem document_unique e n i t c n' i' t' c' : sxfm_document n i t c e -> sxfm_document n' i' t' c' e -> n = n' /\ i = i' /\ t = t' /\ c = c'.
Proof.
  intros D D'. apply document_parts in D, D'. destruct D as (A & B & C), D' as (A' & B' & C'). rewrite B in B'. rewrite C in C'.
  injection B' as G <-. apply given_inj in G. split; [congruence|]. split; [exact G|]. split; [reflexivity|]. destruct c, c'; congruence.
Qed.

(** ** Reading *)
Section Read.
Variable sci : text -> option text.
Variable order : list (nat * (text * rkind)) -> list (nat * (text * rkind)).
Variables (fuel : nat) (or_first : bool) (ord : list nid -> list nid).
Lemma sx_bind_assoc {A B C} (x : sx A) (f : A -> sx B) (g : B -> sx C) : sx_bind (sx_bind x f) g = sx_bind x (fun a => sx_bind (f a) g).
Proof. destruct x; reflexivity. Qed.
Lemma root_read e n i t c : sxfm_document n i t c e -> read_root sci order fuel or_first e = read_calls sci order fuel or_first (Document n i t c).
Proof.
  intros D. unfold read_root. rewrite (proj1 (document_parts _ _ _ _ _ D)). unfold read_calls. cbn [d_name d_indentation d_tree d_constraints].
  destruct n as [n|]; [|reflexivity]. destruct D as [b ms B M]. cbn [elems]. rewrite fold_left_app.
  assert (F : fold_left (fun o c => sx_bind o (fun s => read_part sci order fuel or_first s c)) ms (SxDone (DState default_indentation [] [BName n])) = SxDone (DState default_indentation [] [BName n])).
  { destruct M as [-> |(m & -> & M)]; [reflexivity|]. cbn [fold_left sx_bind]. unfold read_part, is_tag. rewrite (is_meta_tag m M). reflexivity. }
  rewrite F. cbn [fold_left]. cbn [sx_bind].
  assert (P : forall s, read_part sci order fuel or_first s (Elem (T "feature_tree") (given "indentation_string" i) t []) =
    let ind := match i with Some x => x | None => ds_indentation s end in
    sx_bind (read_tree order ind t) (fun r => SxDone (DState ind (snd r) (ds_calls s ++ fst r)))).
  { intros s. unfold read_part. change (is_tag "feature_tree" (Elem (T "feature_tree") (given "indentation_string" i) t [])) with true. cbv iota.
    cbn [content flat_map]. rewrite app_nil_r. destruct i; reflexivity. }
  rewrite P. cbv zeta. cbn [ds_indentation ds_calls].
  destruct (read_tree order (match i with Some x => x | None => default_indentation end) t) as [r| | | |]; cbn [sx_bind]; try (destruct c; reflexivity).
  destruct c as [x|]; [|reflexivity]. cbn [fold_left sx_bind]. unfold read_part. change (is_tag "feature_tree" (Elem (T "constraints") [] x [])) with false. change (is_tag "constraints" (Elem (T "constraints") [] x [])) with true.
  cbv iota. cbn [content flat_map ds_identifiers ds_indentation ds_calls]. rewrite app_nil_r.
  destruct (read_constraints sci fuel or_first (snd r) x); reflexivity.
Qed.
Lemma document_valid_doc e n i t c : sxfm_document n i t c e -> sxfm_valid e = true.
Proof.
  intros D. assert (W : well_formed e).
  { destruct D as [b ms B M]. constructor; [destruct n; cbn; repeat constructor; auto|]. apply Forall_app. split.
    - destruct M as [-> |(m & -> & M)]; [constructor|]. constructor; [|constructor]. destruct M as [b' ds B' F]. constructor; [constructor|].
      eapply Forall_impl; [|exact F]. intros x X. destruct X. constructor; [repeat constructor; auto|constructor].
    - constructor; [constructor; [destruct i; cbn; repeat constructor; auto|constructor]|]. destruct c; repeat constructor. }
  apply (valid_iff e W). left. eauto.
Qed.
Theorem read_document_eq h e n i t c : sxfm_document n i t c e -> read_document sci order fuel or_first ord h e = read_sxfm ord sci order fuel or_first h (Document n i t c).
Proof. intros D. unfold read_document. rewrite (document_valid_doc _ _ _ _ _ D), (root_read _ _ _ _ _ D). reflexivity. Qed.
Theorem fragment_read h e o : sxfm_fragment o e -> read_document sci order fuel or_first ord h e =
  match o with None => SxUndefined | Some n => match build_calls ord h [BName n] with None => SxUndefined | Some r => SxDone r end end.
Proof.
  intros F. assert (W : sxfm_valid e = true /\ attr "name" e = o /\ forall x, In x (elems e) -> is_tag "feature_tree" x = false /\ is_tag "constraints" x = false).
  { destruct F as [n b|e M|i b|b]; [split; [reflexivity|split; [reflexivity|intros x []]]| |destruct i; (split; [reflexivity|split; [reflexivity|intros x []]])|split; [reflexivity|split; [reflexivity|intros x []]]].
    destruct M as [b ds B F].
    assert (W : well_formed (Elem (T "meta") [] b ds)).
    { constructor; [constructor|]. eapply Forall_impl; [|exact F]. intros x X. destruct X. constructor; [repeat constructor; auto|constructor]. }
    split; [apply (valid_iff _ W); right; exists None; apply fragment_meta; constructor; assumption|]. split; [reflexivity|].
    cbn [elems]. rewrite Forall_forall in F. intros y I. destruct (F y I). split; reflexivity. }
  destruct W as (V & A & K). unfold read_document, read_root. rewrite V, A. destruct o as [n|]; [|reflexivity].
  assert (G : forall l s, (forall x, In x l -> is_tag "feature_tree" x = false /\ is_tag "constraints" x = false) ->
    fold_left (fun o c => sx_bind o (fun s => read_part sci order fuel or_first s c)) l (SxDone s) = SxDone s).
  { induction l as [|x l IH]; intros s H; [reflexivity|]. cbn [fold_left sx_bind]. unfold read_part at 2. destruct (H x (or_introl eq_refl)) as [-> ->]. apply IH. intros y I. apply H. right. exact I. }
  rewrite (G _ _ K). reflexivity.
Qed.
End Read.
