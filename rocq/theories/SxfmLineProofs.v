(** Reading one line. *)
From Coq Require Import List ZArith NArith Arith Bool Ascii String Permutation Lia.
From Verif Require Import Text TextProofs LlvmInt ConstraintModel ConstraintParserModel SourceRangeModel FeatureTreeModel FeatureTransactionModel FeatureBuildSpec
  SxfmModel SxfmSpec.
Import ListNotations.
Local Open Scope string_scope.
Local Open Scope list_scope.
Local Open Scope nat_scope.

Lemma eqb_char a b : Ascii.eqb a b = true <-> a = b.
Proof. apply Ascii.eqb_eq. Qed.
Lemma until_app c a b : ~ In c a -> until c (a ++ c :: b) = a.
Proof.
  unfold until. induction a as [|x a IH]; cbn [app take_while]; intros N.
  - rewrite Ascii.eqb_refl. reflexivity.
  - destruct (Ascii.eqb_spec x c) as [->|_]; [exfalso; apply N; left; reflexivity|]. cbn [negb]. f_equal. apply IH. intros I. apply N. right. exact I.
Qed.
Lemma until_all c a : ~ In c a -> until c a = a.
Proof.
  unfold until. induction a as [|x a IH]; cbn [take_while]; intros N; [reflexivity|].
  destruct (Ascii.eqb_spec x c) as [->|_]; [exfalso; apply N; left; reflexivity|]. cbn [negb]. f_equal. apply IH. intros I. apply N. right. exact I.
Qed.
Definition behind (c : ascii) (t : text) : text := drop_while (fun x => negb (Ascii.eqb x c)) t.
Lemma behind_app c a b : ~ In c a -> behind c (a ++ c :: b) = c :: b.
Proof.
  unfold behind. induction a as [|x a IH]; cbn [app drop_while]; intros N.
  - rewrite Ascii.eqb_refl. reflexivity.
  - destruct (Ascii.eqb_spec x c) as [->|_]; [exfalso; apply N; left; reflexivity|]. cbn [negb]. apply IH. intros I. apply N. right. exact I.
Qed.
Lemma behind_none c a : ~ In c a -> behind c a = [].
Proof.
  unfold behind. induction a as [|x a IH]; cbn [drop_while]; intros N; [reflexivity|].
  destruct (Ascii.eqb_spec x c) as [->|_]; [exfalso; apply N; left; reflexivity|]. cbn [negb]. apply IH. intros I. apply N. right. exact I.
Qed.
Lemma contains_char_spec c t : contains_char c t = true <-> In c t.
Proof.
  unfold contains_char. rewrite existsb_exists. split; [intros (x & I & E)|intros I; exists c; split; [exact I|apply Ascii.eqb_refl]].
  apply Ascii.eqb_eq in E. subst x. exact I.
Qed.
Lemma contains_char_false c t : contains_char c t = false <-> ~ In c t.
Proof. rewrite <- contains_char_spec. destruct (contains_char c t); split; congruence. Qed.

(** ** The level *)
Lemma count_skip p k t : count_text p (List.length k) (k ++ t) = count_text p 0 t.
Proof. induction k as [|c k IH]; [reflexivity|exact IH]. Qed.
Lemma count_repeat c p n : count_text (c :: p) 0 (List.concat (repeat (c :: p) n)) = n.
Proof.
  induction n as [|n IH]; [reflexivity|]. cbn [repeat List.concat]. change ((c :: p) ++ List.concat (repeat (c :: p) n)) with (c :: (p ++ List.concat (repeat (c :: p) n))).
  cbn [count_text]. change (c :: p ++ List.concat (repeat (c :: p) n)) with ((c :: p) ++ List.concat (repeat (c :: p) n)). rewrite starts_with_app.
  rewrite count_skip, IH. reflexivity.
Qed.
Lemma in_repeat {A} (c : A) ind n : In c (List.concat (repeat ind n)) -> In c ind.
Proof. induction n as [|n IH]; cbn [repeat List.concat]; [intros []|]. intros I. apply in_app_or in I. tauto. Qed.

Lemma level_written ind n b : indentation_ok ind -> level_of ind (List.concat (repeat ind n) ++ T ":" ++ b) = n.
Proof.
  intros (Ne & F & _). unfold level_of. change (T ":" ++ b) with (":"%char :: b). rewrite until_app.
  - destruct ind as [|c p]; [congruence|]. apply count_repeat.
  - intros I. apply in_repeat in I. apply (F _ I). left. reflexivity.
Qed.

(** ** Identifiers *)
Lemma ids_none t : ~ In "("%char t -> identifiers 0 t = [].
Proof.
  induction t as [|c t IH]; [reflexivity|]. cbn [identifiers]. intros N. destruct (Ascii.eqb_spec c "(") as [->|_]; [exfalso; apply N; left; reflexivity|].
  apply IH. intros I. apply N. right. exact I.
Qed.
Lemma ids_skip k t : identifiers (List.length k) (k ++ t) = identifiers 0 t.
Proof. induction k as [|c k IH]; [reflexivity|exact IH]. Qed.
Lemma ids_before a t : ~ In "("%char a -> identifiers 0 (a ++ t) = identifiers 0 t.
Proof.
  induction a as [|c a IH]; [reflexivity|]. cbn [app identifiers]. intros N. destruct (Ascii.eqb_spec c "(") as [->|_]; [exfalso; apply N; left; reflexivity|].
  apply IH. intros I. apply N. right. exact I.
Qed.
Lemma word_take i t : (forall c, In c i -> word_char c = true) -> take_while is_idchar (i ++ ")"%char :: t) = i.
Proof.
  induction i as [|c i IH]; intros W; [reflexivity|]. cbn [app take_while]. assert (is_idchar c = true) as -> by (apply W; left; reflexivity).
  f_equal. apply IH. intros x I. apply W. right. exact I.
Qed.
Lemma ids_one i t : (forall c, In c i -> word_char c = true) -> identifiers 0 (T "(" ++ i ++ T ")" ++ t) = i :: identifiers 0 t.
Proof.
  intros W. change (T "(" ++ i ++ T ")" ++ t) with ("("%char :: (i ++ ")"%char :: t)). cbn [identifiers]. rewrite Ascii.eqb_refl, (word_take i t W).
  rewrite skipn_app, skipn_all, Nat.sub_diag. cbn [skipn app]. f_equal.
  change (i ++ ")"%char :: t) with (i ++ ([")"%char] ++ t)). rewrite app_assoc.
  replace (S (List.length i)) with (List.length (i ++ [")"%char])) by (rewrite app_length; cbn; lia). apply ids_skip.
Qed.

(** ** Names *)
Definition plain (n : text) : Prop := free_of " [(" n.
Lemma plain_not n c : plain n -> In c (T " [(") -> ~ In c n.
Proof. intros P I J. exact (P _ J I). Qed.
Lemma name_until n c r : plain n -> In c (T " [(") -> until c (n ++ c :: r) = n.
Proof. intros P I. apply until_app. exact (plain_not n c P I). Qed.

Lemma word_not i c : (forall x, In x i -> word_char x = true) -> word_char c = false -> ~ In c i.
Proof. intros W F I. rewrite (W _ I) in F. discriminate. Qed.

(** The name in front of a text that ends it. *)
Inductive ender : text -> Prop :=
| ender_nil : ender []
| ender_blank r : ender (" "%char :: r)
| ender_id r : ender ("("%char :: r)
| ender_card r : ender ("["%char :: r).

Lemma not_in_app {A} (c : A) l r : ~ In c l -> ~ In c r -> ~ In c (l ++ r).
Proof. intros X Y I. apply in_app_or in I. tauto. Qed.

Lemma name_of n r : plain n -> ender r -> n <> [] -> line_name (n ++ r) = n.
Proof.
  intros P E Ne. unfold line_name.
  pose proof (plain_not n " " P ltac:(left; reflexivity)) as N1. pose proof (plain_not n "[" P ltac:(right; left; reflexivity)) as N2.
  pose proof (plain_not n "(" P ltac:(right; right; left; reflexivity)) as N3.
  assert (until "(" n = n) as U3 by (apply until_all; exact N3).
  destruct E as [|r|r|r].
  - rewrite app_nil_r, (until_all " " n N1). assert (contains_char "[" n = false) as -> by (apply contains_char_false; exact N2). exact U3.
  - rewrite (until_app " " n r N1). assert (contains_char "[" n = false) as -> by (apply contains_char_false; exact N2). exact U3.
  - (* an identifier follows directly *)
    assert (forall u, until "(" (n ++ "("%char :: u) = n) as U by (intros u; apply until_app; exact N3).
    assert (exists u, until " " (n ++ "("%char :: r) = n ++ "("%char :: u) as (u & Eu).
    { exists (until " " r). clear -N1. induction n as [|x n IH]; cbn [app]; unfold until; cbn [take_while].
      - reflexivity.
      - destruct (Ascii.eqb_spec x " ") as [->|_]; [exfalso; apply N1; left; reflexivity|]. cbn [negb]. f_equal. apply IH. intros I. apply N1. right. exact I. }
    rewrite Eu. destruct (contains_char "[" (n ++ "("%char :: u)) eqn:C; [|apply U].
    assert (exists v, until "[" (n ++ "("%char :: r) = n ++ "("%char :: v) as (v & Ev).
    { exists (until "[" r). clear -N2. induction n as [|x n IH]; cbn [app]; unfold until; cbn [take_while].
      - reflexivity.
      - destruct (Ascii.eqb_spec x "[") as [->|_]; [exfalso; apply N2; left; reflexivity|]. cbn [negb]. f_equal. apply IH. intros I. apply N2. right. exact I. }
    rewrite Ev. destruct n as [|x n]; [congruence|]. cbn [app]. change (x :: n ++ "("%char :: v) with ((x :: n) ++ "("%char :: v). apply U.
  - assert (exists u, until " " (n ++ "["%char :: r) = n ++ "["%char :: u) as (u & Eu).
    { exists (until " " r). clear -N1. induction n as [|x n IH]; cbn [app]; unfold until; cbn [take_while].
      - reflexivity.
      - destruct (Ascii.eqb_spec x " ") as [->|_]; [exfalso; apply N1; left; reflexivity|]. cbn [negb]. f_equal. apply IH. intros I. apply N1. right. exact I. }
    rewrite Eu. assert (contains_char "[" (n ++ "["%char :: u) = true) as -> by (apply contains_char_spec, in_or_app; right; left; reflexivity).
    rewrite (until_app "[" n r N2). destruct n as [|x n]; [congruence|]. exact U3.
Qed.

Lemma card_no c k : In c (T " (:") -> ~ In c (cardinality k).
Proof. intros I J. destruct k; cbn in I, J; intuition congruence. Qed.
Lemma card_shape k : exists r, cardinality k = "["%char :: r /\ ~ In " "%char r.
Proof. destruct k; eexists; (split; [reflexivity|cbn; intuition congruence]). Qed.

Lemma tail_ender b i t r : tail b i t -> ender r -> ender (t ++ r).
Proof. intros X E. destruct X; cbn [app]; [exact E|constructor|constructor]. Qed.

Lemma nameless bb i t s k : tail bb i t -> s = [] \/ s = T " " -> (forall x, i = Some x -> forall c, In c x -> word_char c = true) ->
  line_name (t ++ s ++ cardinality k) = [].
Proof.
  intros X Hs W. destruct (card_shape k) as (r & -> & Nr). destruct X as [b|b i|i]; cbn [app].
  - destruct Hs as [-> | ->]; [|reflexivity]. cbn [app]. unfold line_name.
    assert (~ In " "%char ("["%char :: r)) as Nr' by (intros [E|I]; [discriminate E|exact (Nr I)]).
    rewrite (until_all " " ("["%char :: r) Nr'). change (contains_char "[" ("["%char :: r)) with true.
    change (until "[" ("["%char :: r)) with (@nil ascii). change (drop_while (fun x : ascii => negb (Ascii.eqb x " "))) with (behind " ").
    rewrite (behind_none " " _ Nr'). reflexivity.
  - specialize (W i eq_refl). unfold line_name. cbn [T list_ascii_of_string app].
    destruct (contains_char "[" (until " " ("("%char :: (i ++ [")"%char]) ++ s ++ "["%char :: r))); [|reflexivity].
    replace (until "[" ("("%char :: (i ++ [")"%char]) ++ s ++ "["%char :: r)) with ("("%char :: (i ++ [")"%char]) ++ s).
    + reflexivity.
    + symmetry. change ("("%char :: (i ++ [")"%char]) ++ s ++ "["%char :: r) with (("("%char :: (i ++ [")"%char])) ++ s ++ "["%char :: r). rewrite app_assoc.
      rewrite until_app; [reflexivity|].
      intros I. apply in_app_or in I. destruct I as [[E|I]|I]; [discriminate E| |destruct Hs as [-> | ->]; cbn in I; intuition discriminate].
      apply in_app_or in I. destruct I as [I|[E|[]]]; [|discriminate E]. exact (word_not i "[" W eq_refl I).
  - reflexivity.
Qed.

Lemma name_behind n i t k : plain n -> tail false i t -> line_name (cardinality k ++ T " " ++ n ++ t) = n.
Proof.
  intros P X. destruct (card_shape k) as (r & -> & Nr). unfold line_name. cbn [T list_ascii_of_string app].
  assert (until " " ("["%char :: r ++ " "%char :: n ++ t) = "["%char :: r) as ->.
  { change ("["%char :: r ++ " "%char :: n ++ t) with (("["%char :: r) ++ " "%char :: n ++ t). apply until_app. intros [E|I]; [discriminate E|exact (Nr I)]. }
  change (contains_char "[" ("["%char :: r)) with true. change (until "[" ("["%char :: r ++ " "%char :: n ++ t)) with (@nil ascii).
  change (drop_while (fun x : ascii => negb (Ascii.eqb x " "))) with (behind " ").
  assert (behind " " ("["%char :: r ++ " "%char :: n ++ t) = " "%char :: n ++ t) as ->.
  { change ("["%char :: r ++ " "%char :: n ++ t) with (("["%char :: r) ++ " "%char :: n ++ t). apply behind_app. intros [E|I]; [discriminate E|exact (Nr I)]. }
  pose proof (plain_not n "(" P ltac:(right; right; left; reflexivity)) as N3.
  inversion X; subst.
  - rewrite app_nil_r. apply until_all. exact N3.
  - apply (until_app "(" n). exact N3.
Qed.

(** ** Identifiers and cardinalities of a written line *)
Definition id_list (i : option text) : list text := match i with Some x => [x] | None => [] end.
Lemma tail_ids b i t r : tail b i t -> (forall x, i = Some x -> forall c, In c x -> word_char c = true) -> ~ In "("%char r ->
  identifiers 0 (t ++ r) = id_list i.
Proof.
  intros X W N. destruct X as [b|b i|i]; cbn [app id_list].
  - apply ids_none. exact N.
  - rewrite <- !app_assoc, (ids_one i r (W i eq_refl)), (ids_none r N). reflexivity.
  - change (T " (" ++ i ++ T ")") with (" "%char :: (T "(" ++ i ++ T ")")). cbn [app identifiers Ascii.eqb Bool.eqb].
    change (identifiers 0 ((T "(" ++ i ++ T ")") ++ r) = [i]). rewrite <- !app_assoc, (ids_one i r (W i eq_refl)), (ids_none r N). reflexivity.
Qed.

Lemma extract_written a r k : ~ In "["%char a -> extract_cardinality (a ++ cardinality k ++ r) = Some (1%Z, match k with RAlternative => 1%Z | ROr => wildcard end).
Proof.
  intros N. unfold extract_cardinality. destruct k; cbn [cardinality T list_ascii_of_string app];
    change (drop_while (fun x : ascii => negb (Ascii.eqb x "["))) with (behind "["); rewrite (behind_app "[" a _ N); reflexivity.
Qed.

Definition type_of (m : mark) : ltype :=
  match m with Root => LRoot | Mandatory => LMandatory | Optional => LOptional | Member => LMember | Group k => LGroup k end.

Lemma body_ids m n i b : body m n i b -> plain n -> (forall x, i = Some x -> forall c, In c x -> word_char c = true) -> identifiers 0 b = id_list i.
Proof.
  intros B P W. pose proof (plain_not n "(" P ltac:(right; right; left; reflexivity)) as N3.
  assert (forall p t, ~ In "("%char p -> tail true i t -> identifiers 0 (p ++ n ++ t) = id_list i) as K.
  { intros p t Np X. rewrite (ids_before p _ Np), (ids_before n _ N3), <- (app_nil_r t). apply (tail_ids true i t []); [exact X|exact W|intros []]. }
  destruct B as [n i t _ X|n i t _ X|n i t _ X|n i t _ X|n i t s k X Hs|n i t k X].
  1-4: apply K; [cbn; intuition discriminate|exact X].
  - rewrite ids_before by (cbn; intuition discriminate). rewrite (ids_before n _ N3). apply (tail_ids true i t); [exact X|exact W|].
    apply not_in_app; [destruct Hs as [-> | ->]; cbn; intuition discriminate|apply card_no; right; left; reflexivity].
  - rewrite ids_before by (cbn; intuition discriminate). rewrite ids_before by (apply card_no; right; left; reflexivity).
    rewrite ids_before by (cbn; intuition discriminate). rewrite (ids_before n _ N3), <- (app_nil_r t). apply (tail_ids false i t []); [exact X|exact W|intros []].
Qed.

Lemma repeat_length (ind : text) n : List.length (List.concat (repeat ind n)) = n * List.length ind.
Proof. induction n as [|n IH]; [reflexivity|]. cbn [repeat List.concat]. rewrite app_length, IH. cbn [Nat.mul]. reflexivity. Qed.
Lemma nth_behind {A} (p : list A) x b k : k = List.length p + 1 -> nth_error (p ++ x :: b) k = nth_error b 0.
Proof.
  intros ->. rewrite nth_error_app2 by lia. replace (List.length p + 1 - List.length p) with 1 by lia. destruct b; reflexivity.
Qed.
Lemma skip_behind {A} (p : list A) x b k j : k = List.length p + 1 + j -> skipn k (p ++ x :: b) = skipn j b.
Proof.
  intros ->. rewrite skipn_app. rewrite (skipn_all2 p) by lia. replace (List.length p + 1 + j - List.length p) with (S j) by lia. reflexivity.
Qed.

Lemma body_name m n i b : body m n i b -> plain n -> (forall x, i = Some x -> forall c, In c x -> word_char c = true) ->
  line_name (skipn (match m with Member => 1 | _ => 2 end) b) = n.
Proof.
  intros B P W. destruct B as [n i t Ne X|n i t Ne X|n i t Ne X|n i t Ne X|n i t s k X Hs|n i t k X]; cbn [skipn T list_ascii_of_string app].
  1-4: apply name_of; [exact P| |exact Ne]; rewrite <- (app_nil_r t); apply (tail_ender true i t []); [exact X|constructor].
  - destruct n as [|x n].
    + cbn [app]. apply (nameless true i t s k X Hs W).
    + change ((x :: n) ++ t ++ s ++ cardinality k) with ((x :: n) ++ (t ++ s ++ cardinality k)). apply name_of; [exact P| |discriminate].
      apply (tail_ender true i t); [exact X|]. destruct Hs as [-> | ->]; destruct k; constructor.
  - apply (name_behind n i t k P X).
Qed.

Lemma parse_written ind e l : indentation_ok ind -> entry_ok e -> writes ind e l ->
  parse_line ind (e_level e) l = SxDone (Line (e_level e) (type_of (e_mark e)) (e_name e) (id_list (e_id e))).
Proof.
  intros (Ni & Fi & _) (P & _ & Wi) (b & B & ->). assert (forall x, e_id e = Some x -> forall c, In c x -> word_char c = true) as W by (intros x E; exact (proj2 (Wi x E))).
  pose proof (body_name _ _ _ _ B P W) as Nm. pose proof (body_ids _ _ _ _ B P W) as Id.
  set (pre := List.concat (repeat ind (e_level e))) in *.
  assert (~ In "("%char pre) as N3. { intros I. apply in_repeat in I. apply (Fi _ I). right; right; left; reflexivity. }
  assert (identifiers 0 (pre ++ T ":" ++ b) = id_list (e_id e)) as Id2.
  { rewrite (ids_before pre _ N3), ids_before by (cbn; intuition discriminate). exact Id. }
  unfold parse_line. rewrite Id2. change (T ":" ++ b) with (":"%char :: b).
  assert (List.length pre = e_level e * List.length ind) as Lp by apply repeat_length.
  rewrite (nth_behind pre ":"%char b) by lia.
  assert (~ In "["%char pre) as N2. { intros I. apply in_repeat in I. apply (Fi _ I). right; left; reflexivity. }
  rewrite (skip_behind pre ":"%char b _ 2) by lia.
  inversion B as [n i t Ne X E1 E2 E3 E4|n i t Ne X E1 E2 E3 E4|n i t Ne X E1 E2 E3 E4|n i t Ne X E1 E2 E3 E4|n i t s k X Hs E1 E2 E3 E4|n i t k X E1 E2 E3 E4];
    try rewrite <- E1; rewrite <- E1 in Nm; rewrite <- E4 in Nm.
  - change (nth_error (T "r " ++ e_name e ++ t) 0) with (Some "r"%char). cbn [type_of]. rewrite Nm. reflexivity.
  - change (nth_error (T "m " ++ e_name e ++ t) 0) with (Some "m"%char). cbn [type_of]. rewrite Nm. reflexivity.
  - change (nth_error (T "o " ++ e_name e ++ t) 0) with (Some "o"%char). cbn [type_of]. rewrite Nm. reflexivity.
  - change (nth_error (T " " ++ e_name e ++ t) 0) with (Some " "%char). cbn [type_of]. rewrite (skip_behind pre ":"%char _ _ 1) by lia. rewrite Nm. reflexivity.
  - change (nth_error (T "g " ++ e_name e ++ t ++ s ++ cardinality k) 0) with (Some "g"%char). cbn [type_of]. rewrite Nm.
    replace (pre ++ ":"%char :: T "g " ++ e_name e ++ t ++ s ++ cardinality k) with ((pre ++ ":"%char :: T "g " ++ e_name e ++ t ++ s) ++ cardinality k ++ [])
      by (rewrite app_nil_r; cbn [T list_ascii_of_string app]; rewrite <- !app_assoc; cbn [app]; rewrite <- !app_assoc; reflexivity).
    rewrite extract_written; [destruct k; reflexivity|].
    apply not_in_app; [exact N2|]. cbn [T list_ascii_of_string app]. intros [I|[I|[I|I]]]; try discriminate I. apply in_app_or in I. destruct I as [I|I].
    + exact (plain_not _ _ P ltac:(right; left; reflexivity) I).
    + apply in_app_or in I. destruct I as [I|I]; [|destruct Hs as [-> | ->]; cbn in I; intuition discriminate].
      inversion X as [b0 Y1 Y2 Y3|b0 j Y1 Y2 Y3|j Y1 Y2]; subst t.
      * destruct I.
      * cbn in I. destruct I as [I|I]; [discriminate I|]. apply in_app_or in I. destruct I as [I|[I|[]]]; [|discriminate I]. exact (word_not j "[" (W j (eq_sym Y2)) eq_refl I).
      * cbn in I. destruct I as [I|[I|I]]; try discriminate I. apply in_app_or in I. destruct I as [I|[I|[]]]; [|discriminate I]. exact (word_not j "[" (W j (eq_sym Y2)) eq_refl I).
  - change (nth_error (T "g " ++ cardinality k ++ T " " ++ e_name e ++ t) 0) with (Some "g"%char). cbn [type_of]. rewrite Nm.
    replace (pre ++ ":"%char :: T "g " ++ cardinality k ++ T " " ++ e_name e ++ t) with ((pre ++ T ":g ") ++ cardinality k ++ (T " " ++ e_name e ++ t))
      by (rewrite <- !app_assoc; reflexivity).
    rewrite extract_written; [destruct k; reflexivity|]. apply not_in_app; [exact N2|]. cbn. intuition discriminate.
Qed.

Lemma written_visible ind e l : writes ind e l -> blank l = false /\ contains_char ":" l = true.
Proof.
  intros (b & _ & ->). split.
  - unfold blank. rewrite forallb_app. cbn [T list_ascii_of_string app forallb]. change (is_space ":") with false. apply andb_false_r.
  - apply contains_char_spec. apply in_or_app. right. left. reflexivity.
Qed.
Lemma white_blank l : Forall white l -> blank l = true.
Proof.
  intros F. apply forallb_forall. intros c I. rewrite Forall_forall in F. specialize (F c I). unfold is_space. unfold white in F. cbn [In] in F.
  destruct F as [E|[E|[E|[E|[E|[]]]]]]; rewrite <- E; reflexivity.
Qed.
