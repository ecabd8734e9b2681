(** Reading the formulas of an SXFM document. *)
From Coq Require Import List ZArith NArith Arith Bool Ascii String Permutation Sorted Lia.
From Verif Require Import Text TextProofs LlvmInt ConstraintModel ConstraintSpec ConstraintParserModel ConstraintTokenSpec ConstraintParserProofs ConstraintLexerProofs ConstraintRoundTrip
  SourceRangeModel FeatureTreeModel FeatureTreeSpec FeatureTreeProofs FeatureTransactionModel FeatureEditSpec FeatureBuildSpec
  SxfmModel SxfmSpec SxfmLineProofs SxfmTreeProofs SxfmTreeFinal SxfmFormulaSpec SxfmFormulaProofs.
Import ListNotations.
Local Open Scope string_scope.
Local Open Scope list_scope.
Local Open Scope nat_scope.

(** ** Texts joined by blanks *)
Definition sp : ascii := " "%char.
Definition joined (x : text) (xs : list text) : text := x ++ flat_map (fun t => sp :: t) xs.
Definition blankless (t : text) : Prop := ~ In sp t.
Lemma joined_app x xs y ys : joined x (xs ++ y :: ys) = joined x xs ++ sp :: joined y ys.
Proof. unfold joined. rewrite flat_map_app, <- app_assoc. reflexivity. Qed.
Lemma joined_split x xs a c : blankless x -> Forall blankless xs -> a ++ sp :: c = joined x xs ->
  exists us y vs, xs = us ++ y :: vs /\ a = joined x us /\ c = joined y vs.
Proof.
  revert x a. induction xs as [|y ys IH]; intros x a Bx B E.
  - exfalso. unfold joined in E. cbn [flat_map] in E. rewrite app_nil_r in E. apply Bx. rewrite <- E. apply in_or_app. right. left. reflexivity.
  - change (joined x (y :: ys)) with (x ++ sp :: joined y ys) in E. destruct (app_cases _ _ _ _ E) as [(l & -> & E1)|(l & -> & E1)].
    + destruct l as [|d l]; cbn [app] in E1.
      * injection E1 as E1. exists [], y, ys. split; [reflexivity|]. split; [unfold joined; cbn [flat_map]; rewrite !app_nil_r; reflexivity|symmetry; exact E1].
      * injection E1 as Ed El. subst d. destruct (IH y l (Forall_inv B) (Forall_inv_tail B) (eq_sym El)) as (us & z & vs & -> & -> & ->). exists (y :: us), z, vs. repeat split.
    + destruct l as [|d l]; cbn [app] in E1.
      * injection E1 as E1. exists [], y, ys. split; [reflexivity|]. split; [unfold joined; cbn [flat_map]; rewrite !app_nil_r; reflexivity|exact E1].
      * injection E1 as Ed El. exfalso. apply Bx. apply in_or_app. right. left. symmetry. exact Ed.
Qed.
Lemma joined_one x xs y : blankless y -> y = joined x xs -> xs = [] /\ x = y.
Proof.
  intros B E. destruct xs as [|z zs]; [unfold joined in E; cbn [flat_map] in E; rewrite app_nil_r in E; split; congruence|].
  exfalso. apply B. rewrite E. unfold joined. apply in_or_app. right. left. reflexivity.
Qed.

(** Replacing a token between two blanks. *)
Section Token.
Variables w v : text.
Hypothesis Bw : blankless w.
Hypothesis Bv : blankless v.
Hypothesis Nwv : w <> v.
Let key := sp :: w ++ [sp].
Let value := sp :: v ++ [sp].
Definition turn (t : text) : text := if text_eqb t w then v else t.
Definition times (ts : list text) : nat := List.length (filter (fun t => text_eqb t w) ts).

Lemma token_at x xs a b : blankless x -> Forall blankless xs -> a ++ key ++ b = joined x xs -> exists us y vs, xs = us ++ w :: y :: vs /\ a = joined x us /\ b = joined y vs.
Proof.
  intros Bx B E. unfold key in E. cbn [app] in E. rewrite <- app_assoc in E. destruct (joined_split x xs a _ Bx B E) as (us & y & vs & -> & -> & E2). cbn [app] in E2.
  apply Forall_app in B. destruct B as (_ & B). destruct (joined_split y vs w b (Forall_inv B) (Forall_inv_tail B) E2) as (us2 & y2 & vs2 & -> & E3 & ->).
  destruct (joined_one y us2 w Bw E3) as (-> & ->). exists us, y2, vs2. repeat split.
Qed.
Lemma turn_none ts : ~ In w ts -> map turn ts = ts.
Proof. intros N. rewrite <- (map_id ts) at 2. apply map_ext_in. intros t I. unfold turn. destruct (text_eqb t w) eqn:E; [|reflexivity]. apply text_eqb_eq in E. subst t. contradiction. Qed.

Lemma replace_tokens x : blankless x -> forall n xs z, times xs = n -> Forall blankless (xs ++ [z]) -> z <> w ->
  forall fuel, n < fuel -> replace_all fuel key value (joined x (xs ++ [z])) = Some (joined x (map turn xs ++ [z])).
Proof.
  intros Bx. induction n as [|n IH]; intros xs z Tm B Nz [|fuel] L; try lia; cbn [replace_all].
  - assert (~ In w xs) as Nx. { intros I. unfold times in Tm. assert (In w (filter (fun t => text_eqb t w) xs)) as J by (apply filter_In; split; [exact I|apply text_eqb_eq; reflexivity]). destruct (filter (fun t => text_eqb t w) xs); [destruct J|discriminate Tm]. }
    destruct (find_text key (joined x (xs ++ [z]))) as [i|] eqn:E; [|rewrite turn_none by exact Nx; reflexivity]. exfalso.
    destruct (found_in _ _ _ E) as (a & b & X & _). symmetry in X. destruct (token_at x _ a b Bx B X) as (us & y & vs & Q & _ & _).
    assert (In w (xs ++ [z])) as I by (rewrite Q; apply in_or_app; right; left; reflexivity). apply in_app_or in I. destruct I as [I|[I|[]]]; [contradiction|congruence].
  - destruct (find_text key (joined x (xs ++ [z]))) as [i|] eqn:E.
    + destruct (found_in _ _ _ E) as (a & b & X & <-). rewrite X, replace_found. symmetry in X. destruct (token_at x _ a b Bx B X) as (us & y & vs & Q & -> & ->).
      destruct (@exists_last _ (y :: vs) ltac:(discriminate)) as (ms & z' & Ez). rewrite Ez in Q. change (us ++ w :: ms ++ [z']) with (us ++ (w :: ms) ++ [z']) in Q. rewrite app_assoc in Q. apply app_inj_tail in Q. destruct Q as (-> & <-).
      assert (joined x us ++ value ++ joined y vs = joined x ((us ++ v :: ms) ++ [z])) as ->.
      { unfold value. cbn [app]. rewrite <- !app_assoc. cbn [app]. rewrite <- Ez. rewrite joined_app. reflexivity. }
      assert (text_eqb v w = false) as Vw by (apply text_eqb_neq; congruence).
      rewrite IH; [| | |exact Nz|lia].
      * rewrite !map_app. cbn [map]. unfold turn at 2 5. rewrite Vw, (proj2 (text_eqb_eq w w) eq_refl). reflexivity.
      * unfold times in *. rewrite filter_app, app_length in *. cbn [filter] in *. rewrite Vw. rewrite (proj2 (text_eqb_eq w w) eq_refl) in Tm. cbn [List.length] in Tm. lia.
      * rewrite !Forall_app in *. destruct B as ((B1 & B2) & B3). split; [split; [exact B1|constructor; [exact Bv|exact (Forall_inv_tail B2)]]|exact B3].
    + exfalso. unfold times in Tm. destruct (filter (fun t => text_eqb t w) xs) as [|t l] eqn:F; [discriminate Tm|].
      assert (In t (filter (fun t => text_eqb t w) xs)) as I by (rewrite F; left; reflexivity). apply filter_In in I. destruct I as (I & Q). apply text_eqb_eq in Q. subst t.
      apply (proj1 (find_text_none _ _) E). apply in_split in I. destruct I as (l1 & l2 & ->).
      exists (joined x l1). rewrite <- app_assoc. cbn [app]. rewrite joined_app. destruct (l2 ++ [z]) as [|y ys] eqn:Ey; [destruct l2; discriminate|].
      exists (joined y ys). unfold key. cbn [app]. rewrite <- app_assoc. reflexivity.
Qed.
End Token.

(** ** Formulas *)
Definition op_of (o : bool) : binop := if o then BOr else BAnd.
Definition op_text (o : bool) : text := if o then T "|" else T "&".
(** The text of a formula with given words and connectives. *)
Definition spelt (f : text -> text) (l : literal) : text := sign (lit_negated l) ++ f (lit_word l).
Definition tokens_of (f : text -> text) (g : bool -> text) (r : connected) : list text := flat_map (fun x : bool * literal => [g (fst x); spelt f (snd x)]) r.

Lemma formula_joined l r : formula_text l r = joined (spelt (fun w => w) l) (tokens_of (fun w => w) connective r).
Proof.
  unfold formula_text, joined, spelt. rewrite <- app_assoc. f_equal. f_equal. induction r as [|(o, x) r IH]; [reflexivity|].
  cbn [tokens_of flat_map app fst snd]. fold (tokens_of (fun w => w) connective r). rewrite IH. unfold spelt. cbn [T list_ascii_of_string app]. rewrite <- !app_assoc. cbn [app]. rewrite <- !app_assoc. reflexivity.
Qed.

(** Pieces of a formula. *)
Fixpoint cut (l : literal) (r : connected) : pieces :=
  match r with
  | [] => [(lit_word l, [])]
  | (o, x) :: r' => (lit_word l, [sp]) :: (connective o, sp :: sign (lit_negated x)) :: cut x r'
  end.
Lemma formula_cut f l r : sign (lit_negated l) ++ flat (map (fun p => (f (fst p), snd p)) (cut l r)) =
  joined (spelt f l) (tokens_of f (fun o => f (connective o)) r).
Proof.
  revert l. induction r as [|(o, x) r IH]; intros l.
  - cbn. unfold joined, spelt. cbn. rewrite !app_nil_r. reflexivity.
  - cbn [cut map fst snd]. change (flat (?a :: ?b :: ?c)) with ((fst a ++ snd a) ++ (fst b ++ snd b) ++ flat c). cbn [fst snd].
    cbn [tokens_of flat_map app fst snd]. fold (tokens_of f (fun o => f (connective o)) r).
    change (joined (spelt f l) (f (connective o) :: spelt f x :: tokens_of f (fun o => f (connective o)) r)) with (spelt f l ++ sp :: f (connective o) ++ sp :: joined (spelt f x) (tokens_of f (fun o => f (connective o)) r)).
    rewrite <- IH. unfold spelt. cbn [flat flat_map]. rewrite <- !app_assoc. cbn [app]. reflexivity.
Qed.
Lemma cut_words l r p : In p (cut l r) -> In (fst p) (literals l r ++ map (fun x : bool * literal => connective (fst x)) r) /\ (snd p = [] \/ snd p = [sp] \/ snd p = [sp; "~"%char]).
Proof.
  revert l. induction r as [|(o, x) r IH]; intros l I.
  - destruct I as [<-|[]]. split; [left; reflexivity|left; reflexivity].
  - cbn [cut] in I. destruct I as [<-|[<-|I]].
    + split; [left; reflexivity|right; left; reflexivity].
    + cbn [fst snd]. split; [apply in_or_app; right; left; reflexivity|]. destruct (lit_negated x); [right; right; reflexivity|right; left; reflexivity].
    + destruct (IH x I) as (J & K). split; [|exact K]. unfold literals in *. cbn [map snd]. apply in_app_or in J. apply in_or_app. destruct J as [J|J]; [left; right; exact J|right; right; exact J].
Qed.
Lemma cut_separated l r : separated (cut l r).
Proof. revert l. induction r as [|(o, x) r IH]; intros l; [exact I|]. cbn [cut]. split; [discriminate|]. specialize (IH x). destruct (cut x r) as [|p ps] eqn:E; [exact I|]. split; [discriminate|exact IH]. Qed.
Lemma cut_length l r : List.length (cut l r) = 1 + 2 * List.length r.
Proof. revert l. induction r as [|(o, x) r IH]; intros l; [reflexivity|]. cbn [cut List.length]. rewrite IH. lia. Qed.
Lemma connective_word o : word (connective o).
Proof. destruct o; (split; [discriminate|]); intros c I; repeat (destruct I as [<-|I]; [reflexivity|]); destruct I. Qed.
Lemma cut_phrase l r : (forall w, In w (literals l r) -> word w) -> phrase (sign (lit_negated l)) (cut l r).
Proof.
  intros W. constructor.
  - intros p I. destruct (cut_words l r p I) as (J & K). split.
    + apply in_app_or in J. destruct J as [J|J]; [exact (W _ J)|]. apply in_map_iff in J. destruct J as (x & <- & _). apply connective_word.
    + intros c C. destruct K as [K|[K|K]]; rewrite K in C; cbn [In] in C; repeat (destruct C as [<-|C]; [reflexivity|]); destruct C.
  - intros c C. destruct (lit_negated l); [|destruct C]. destruct C as [<-|[]]. reflexivity.
  - apply cut_separated.
Qed.

(** Both orders of replacing the connectives. *)
Lemma tokens_last f g r : r <> [] -> exists ts x, tokens_of f g r = ts ++ [spelt f x] /\ In x (map snd r).
Proof.
  intros N. destruct (exists_last N) as (r' & (o, x) & ->). exists (tokens_of f g r' ++ [g o]), x. unfold tokens_of. rewrite flat_map_app. cbn [flat_map fst snd app]. rewrite <- !app_assoc. cbn [app].
  split; [reflexivity|]. rewrite map_app. apply in_or_app. right. left. reflexivity.
Qed.
Lemma turn_tokens w v f g h r : (forall o, turn w v (g o) = h o) -> (forall x, In x (map snd r) -> turn w v (spelt f x) = spelt f x) -> map (turn w v) (tokens_of f g r) = tokens_of f h r.
Proof.
  intros G F. induction r as [|(o, x) r IH]; [reflexivity|]. cbn [tokens_of flat_map app map fst snd] in *. rewrite G, (F x (or_introl eq_refl)). f_equal. f_equal. apply IH. intros y Y. apply F. right. exact Y.
Qed.
Lemma replace_connective w v f g h l r fuel : blankless w -> blankless v -> w <> v -> (forall o, blankless (g o)) -> (forall x, In x (l :: map snd r) -> blankless (spelt f x) /\ spelt f x <> w) ->
  (forall o, turn w v (g o) = h o) -> 2 * List.length r < fuel ->
  replace_all fuel (sp :: w ++ [sp]) (sp :: v ++ [sp]) (joined (spelt f l) (tokens_of f g r)) = Some (joined (spelt f l) (tokens_of f h r)).
Proof.
  intros Bw Bv N Bg F G L. destruct r as [|q r].
  - destruct fuel as [|fuel]; [lia|]. cbn [tokens_of flat_map]. apply replace_unused. intros (a & b & E).
    destruct (token_at w Bw (spelt f l) [] a b (proj1 (F l (or_introl eq_refl))) ltac:(constructor) (eq_sym E)) as (us & y & vs & Q & _). destruct us; discriminate.
  - assert (forall x, In x (map snd (q :: r)) -> turn w v (spelt f x) = spelt f x) as Tx.
    { intros x I. unfold turn. destruct (text_eqb (spelt f x) w) eqn:E; [|reflexivity]. apply text_eqb_eq in E. exfalso. exact (proj2 (F x (or_intror I)) E). }
    pose proof (turn_tokens w v f g h (q :: r) G Tx) as Tt.
    destruct (tokens_last f g (q :: r) ltac:(discriminate)) as (ts & x & E & Ix). rewrite <- Tt, E, map_app. cbn [map]. rewrite (Tx x Ix).
    apply (replace_tokens w v Bw Bv N (spelt f l) (proj1 (F l (or_introl eq_refl))) (times w ts) ts (spelt f x) eq_refl).
    + rewrite <- E. apply Forall_forall. intros t I. unfold tokens_of in I. apply in_flat_map in I. destruct I as ((o, y) & I & [<-|[<-|[]]]); [apply Bg|]. apply F. right. apply in_map_iff. exists (o, y). split; [reflexivity|exact I].
    + exact (proj2 (F x (or_intror Ix))).
    + eapply Nat.le_lt_trans; [|exact L].
      assert (times w ts <= List.length ts) as L1 by (unfold times; clear; induction ts as [|t l IH]; cbn [filter]; [reflexivity|]; destruct (text_eqb t w); cbn [List.length]; lia).
      assert (List.length (tokens_of f g (q :: r)) = 2 * List.length (q :: r)) as L2.
      { generalize (q :: r). clear. intros c. induction c as [|p c IH]; [reflexivity|]. unfold tokens_of in *. cbn [flat_map app List.length]. rewrite IH. lia. }
      apply (f_equal (@List.length text)) in E. rewrite app_length in E. cbn [List.length] in E. lia.
Qed.

(** ** Trimming *)
Lemma drop_all p (a b : text) : Forall (fun c => p c = true) a -> drop_while p (a ++ b) = drop_while p b.
Proof. intros F. induction F as [|c a H F IH]; [reflexivity|]. cbn [app drop_while]. rewrite H. exact IH. Qed.
Lemma drop_none p c (b : text) : p c = false -> drop_while p (c :: b) = c :: b.
Proof. intros H. cbn [drop_while]. rewrite H. reflexivity. Qed.
Lemma white_space c : white c -> is_space c = true.
Proof. intros W. unfold is_space. unfold white in W. cbn [In] in W. destruct W as [E|[E|[E|[E|[E|[]]]]]]; rewrite <- E; reflexivity. Qed.
Lemma trim_core before after c u v d : Forall white before -> Forall white after -> is_space c = false -> is_space d = false -> c :: u = v ++ [d] ->
  trim (before ++ (c :: u) ++ after) = c :: u.
Proof.
  intros B A C D E. unfold trim.
  rewrite drop_all by (eapply Forall_impl; [|exact B]; exact white_space). cbn [app]. rewrite drop_none by exact C.
  change (c :: u ++ after) with ((c :: u) ++ after). rewrite rev_app_distr, drop_all by (apply Forall_rev; eapply Forall_impl; [|exact A]; exact white_space).
  rewrite E, rev_app_distr. cbn [rev app]. rewrite drop_none by exact D. cbn [rev]. rewrite rev_involutive. reflexivity.
Qed.
Lemma word_not_space c : SxfmSpec.word_char c = true -> is_space c = false.
Proof.
  intros W. destruct (is_space c) eqn:E; [|reflexivity]. exfalso. unfold is_space in E. unfold SxfmSpec.word_char, is_alnum, is_alpha, is_lower, is_upper, is_digit in W.
  apply orb_prop in E. assert (code c <= 32) as L. { destruct E as [E|E]; [apply Nat.eqb_eq in E; lia|]. apply andb_prop in E. destruct E as (_ & E). apply Nat.leb_le in E. lia. }
  destruct (Ascii.eqb c "_") eqn:U; [apply Ascii.eqb_eq in U; rewrite U in L; change (95 <= 32) in L; lia|]. rewrite orb_false_r in W.
  repeat (apply orb_prop in W; destruct W as [W|W]); apply andb_prop in W; destruct W as (W1 & W2); apply Nat.leb_le in W1; lia.
Qed.
Lemma formula_ends l r : (forall w, In w (literals l r) -> word w) ->
  exists c u v d, formula_text l r = c :: u /\ c :: u = v ++ [d] /\ is_space c = false /\ is_space d = false.
Proof.
  intros W. destruct (W (lit_word l) (or_introl eq_refl)) as (Nl & Wl). destruct (lit_word l) as [|c0 w0] eqn:El; [congruence|].
  assert (exists v d, formula_text l r = v ++ [d] /\ is_space d = false) as (v & d & Ev & Hd).
  { destruct (@exists_last _ (c0 :: w0) ltac:(discriminate)) as (w1 & d1 & E1). destruct r as [|q r].
    - unfold formula_text. cbn [flat_map]. rewrite app_nil_r, El, E1. exists (sign (lit_negated l) ++ w1), d1. rewrite <- app_assoc. split; [reflexivity|]. apply word_not_space, Wl. rewrite E1. apply in_or_app. right. left. reflexivity.
    - destruct (@exists_last _ (q :: r) ltac:(discriminate)) as (r' & (o, x) & Er). assert (word (lit_word x)) as (Nx & Wx).
      { apply W. right. apply in_map_iff. exists (o, x). split; [reflexivity|]. rewrite Er. apply in_or_app. right. left. reflexivity. }
      destruct (exists_last Nx) as (w2 & d2 & E2). unfold formula_text. rewrite Er, flat_map_app. cbn [flat_map fst snd]. rewrite app_nil_r, E2.
      exists (sign (lit_negated l) ++ lit_word l ++ flat_map (fun x0 : bool * literal => T " " ++ connective (fst x0) ++ T " " ++ sign (lit_negated (snd x0)) ++ lit_word (snd x0)) r' ++ T " " ++ connective o ++ T " " ++ sign (lit_negated x) ++ w2), d2. rewrite <- !app_assoc. split; [reflexivity|]. apply word_not_space, Wx. rewrite E2. apply in_or_app. right. left. reflexivity. }
  unfold formula_text in *. rewrite El in *. destruct (lit_negated l); cbn [sign] in *.
  - exists "~"%char. eexists. exists v, d. split; [reflexivity|]. split; [exact Ev|]. split; [reflexivity|exact Hd].
  - exists c0. eexists. exists v, d. split; [reflexivity|]. split; [exact Ev|]. split; [apply word_not_space, Wl; left; reflexivity|exact Hd].
Qed.

(** ** The formula of a line *)
Lemma identifier_chars s : identifier (U s) -> s <> [] /\ forall c, In c s -> SxfmSpec.word_char c = true.
Proof.
  intros (c & r & E & A & F & _). rewrite T_U in E. subst s. split; [discriminate|]. intros d [<-|D].
  - unfold SxfmSpec.word_char, is_alnum. rewrite A. reflexivity.
  - rewrite Forall_forall in F. destruct (F d D) as [H| ->]; [unfold SxfmSpec.word_char; rewrite H; reflexivity|reflexivity].
Qed.
Lemma spelt_facts f l : identifier (U (f (lit_word l))) -> f (lit_word l) <> T "and" -> blankless (spelt f l) /\ spelt f l <> T "or" /\ spelt f l <> T "and".
Proof.
  intros Id Na. destruct (identifier_chars _ Id) as (Ne & W). unfold spelt. assert (f (lit_word l) <> T "or") as No.
  { intros E. destruct Id as (_ & _ & _ & _ & _ & N). apply N. rewrite E. reflexivity. }
  split; [|destruct (lit_negated l); cbn [sign T list_ascii_of_string app]; [split; discriminate|split; assumption]].
  apply not_in_app; [destruct (lit_negated l); cbn; intuition discriminate|]. intros I. specialize (W _ I). discriminate W.
Qed.

Section Formula.
Variables (es : list entry) (m : list (text * text)).
Hypothesis Mk : NoDup (map fst m).
Hypothesis Ml : forall i n, lookup text_eqb i m = Some n <-> stands_for es i n.
Hypothesis Eo : forall e, In e es -> entry_ok e /\ id_apart e.

Lemma stands_entry i n : stands_for es i n -> exists e, In e es /\ e_id e = Some i /\ e_name e = n.
Proof.
  clear. intros H. induction H as [es e i E|es e i n N H (x & I & Ei & En)].
  - exists e. split; [apply in_or_app; right; left; reflexivity|]. split; [exact E|reflexivity].
  - exists x. split; [apply in_or_app; left; exact I|]. split; assumption.
Qed.

Lemma formula_of fuel or_first label before l r after f :
  ~ In ":"%char label -> Forall white before -> Forall white after -> legible es f l r -> 2 * List.length r + 1 < fuel ->
  formula fuel or_first m (label ++ T ":" ++ before ++ formula_text l r ++ after) = Some (joined (spelt f l) (tokens_of f op_text r)).
Proof.
  intros Nc B A Lg L. unfold formula.
  assert (drop_while (fun x => negb (Ascii.eqb x ":")) (label ++ T ":" ++ before ++ formula_text l r ++ after) = ":"%char :: before ++ formula_text l r ++ after) as ->.
  { rewrite drop_all; [reflexivity|]. apply Forall_forall. intros c I. destruct (Ascii.eqb_spec c ":") as [->|N]; [contradiction|reflexivity]. }
  assert (forall w, In w (literals l r) -> word w) as Ww by (intros w I; exact (proj1 (lg_words _ _ _ _ Lg w I))).
  destruct (formula_ends l r Ww) as (c & u & v & d & E1 & E2 & Hc & Hd).
  assert (trim (before ++ formula_text l r ++ after) = formula_text l r) as ->. { rewrite E1. apply (trim_core before after c u v d); assumption. }
  assert (forall j n, lookup text_eqb j m = Some n /\ j <> n -> substituted es j n) as Sb by (intros j n (X & Y); split; [apply Ml; exact X|exact Y]).
  assert (map fst (cut l r) = map fst (cut l r)) as _ by reflexivity.
  assert (forall w, In w (map fst (cut l r)) -> In w (literals l r ++ map (fun x : bool * literal => connective (fst x)) r)) as Cw.
  { intros w I. apply in_map_iff in I. destruct I as (p & <- & I). exact (proj1 (cut_words l r p I)). }
  assert (formula_text l r = sign (lit_negated l) ++ flat (cut l r)) as ->.
  { rewrite formula_joined. refine (eq_trans (eq_sym (formula_cut (fun w => w) l r)) _). f_equal. f_equal. rewrite <- (map_id (cut l r)) at 2. apply map_ext. intros (a, b). reflexivity. }
  rewrite (replace_all_keys m (sign (lit_negated l)) (cut l r) Mk).
  - cbn [bind]. unfold renamed. rewrite formula_cut.
    assert (forall w, In w (literals l r) -> named m w = f w) as Nf.
    { intros w I. destruct (lg_words _ _ _ _ Lg w I) as (_ & [Me|(Me & ->)] & _); unfold named; [rewrite (proj2 (Ml _ _) Me); reflexivity|]. destruct (lookup text_eqb w m) as [n|] eqn:X; [|reflexivity]. exfalso. exact (Me n (proj1 (Ml _ _) X)). }
    assert (forall o, named m (connective o) = connective o) as Nco.
    { intros o. unfold named. destruct (lookup text_eqb (connective o) m) as [n|] eqn:X; [|reflexivity]. destruct (text_eqb (connective o) n) eqn:Q; [apply text_eqb_eq in Q; symmetry; exact Q|]. apply text_eqb_neq in Q. exfalso. exact (lg_connectives _ _ _ _ Lg o n (Sb _ _ (conj X Q))). }
    assert (forall x, In x (l :: map snd r) -> spelt (named m) x = spelt f x) as Sp.
    { intros x I. unfold spelt. rewrite Nf; [reflexivity|]. unfold literals. destruct I as [<-|I]; [left; reflexivity|right]. apply in_map_iff in I. destruct I as (y & <- & I). apply in_map_iff. exists y. split; [reflexivity|exact I]. }
    assert (joined (spelt (named m) l) (tokens_of (named m) (fun o => named m (connective o)) r) = joined (spelt f l) (tokens_of f connective r)) as ->.
    { rewrite (Sp l (or_introl eq_refl)). f_equal. clear - Sp Nco. induction r as [|(o, x) r IH]; [reflexivity|]. cbn [tokens_of flat_map app fst snd]. rewrite Nco, (Sp x (or_intror (or_introl eq_refl))). f_equal. f_equal. apply IH.
      intros y [<-|Y]; [apply Sp; left; reflexivity|apply Sp; right; right; exact Y]. }
    assert (forall x, In x (l :: map snd r) -> blankless (spelt f x) /\ spelt f x <> T "or" /\ spelt f x <> T "and") as Sf.
    { intros x I. assert (In (lit_word x) (literals l r)) as J. { unfold literals. destruct I as [<-|I]; [left; reflexivity|right]. apply in_map_iff in I. destruct I as (y & <- & I). apply in_map_iff. exists y. split; [reflexivity|exact I]. }
      destruct (lg_words _ _ _ _ Lg _ J) as (_ & _ & Id & Na). apply spelt_facts; assumption. }
    assert (forall t, blankless (T t) <-> ~ In sp (T t)) as _ by (intros; reflexivity).
    assert (blankless (T "or") /\ blankless (T "and") /\ blankless (T "|") /\ blankless (T "&")) as (B1 & B2 & B3 & B4) by (repeat split; intros I; cbn in I; intuition discriminate).
    assert (forall w v f g h l r fuel, T w <> T v -> blankless (T w) -> blankless (T v) -> (forall o, blankless (g o)) -> (forall x, In x (l :: map snd r) -> blankless (spelt f x) /\ spelt f x <> T w) ->
      (forall o, turn (T w) (T v) (g o) = h o) -> 2 * List.length r < fuel ->
      replace_all fuel (T (" " ++ w ++ " ")) (T (" " ++ v ++ " ")) (joined (spelt f l) (tokens_of f g r)) = Some (joined (spelt f l) (tokens_of f h r))) as Step.
    { clear. intros w v f g h l r fuel N Bw Bv Bg F G L.
      assert (forall s, T (" " ++ s ++ " ") = sp :: T s ++ [sp]) as Q. { intros s. cbn [T list_ascii_of_string append]. f_equal. induction s as [|a s IH]; [reflexivity|]. cbn [append list_ascii_of_string app]. rewrite IH. reflexivity. }
      rewrite !Q. apply replace_connective; assumption. }
    destruct or_first; cbn [special_keys fold_left fst snd bind];
      change (T " or ") with (T (" " ++ "or" ++ " ")); change (T " | ") with (T (" " ++ "|" ++ " ")); change (T " and ") with (T (" " ++ "and" ++ " ")); change (T " & ") with (T (" " ++ "&" ++ " ")).
    + rewrite (Step "or" "|" f connective (fun o => if o then T "|" else T "and")); [| |exact B1|exact B3| | | |lia].
      * cbn [bind]. apply (Step "and" "&" f _ op_text); [discriminate|exact B2|exact B4|intros []; assumption| |intros []; reflexivity|lia]. intros x I. destruct (Sf x I) as (X & _ & Y). split; assumption.
      * discriminate.
      * intros []; assumption.
      * intros x I. destruct (Sf x I) as (X & Y & _). split; assumption.
      * intros []; reflexivity.
    + rewrite (Step "and" "&" f connective (fun o => if o then T "or" else T "&")); [| |exact B2|exact B4| | | |lia].
      * cbn [bind]. apply (Step "or" "|" f _ op_text); [discriminate|exact B1|exact B3|intros []; assumption| |intros []; reflexivity|lia]. intros x I. destruct (Sf x I) as (X & Y & _). split; assumption.
      * discriminate.
      * intros []; assumption.
      * intros x I. destruct (Sf x I) as (X & _ & Y). split; assumption.
      * intros []; reflexivity.
  - intros j n (X & Y). apply Ml in X. destruct (stands_entry j n X) as (e & I & Ei & <-). destruct (Eo e I) as ((_ & _ & W) & Ap). split; [exact (W j Ei)|]. destruct (Ap j Ei) as [Z|Z]; [contradiction|exact Z].
  - apply cut_phrase. exact Ww.
  - intros w j n I S O. destruct (un_words _ _ (lg_undisturbed _ _ _ _ Lg) w j n (Cw w I) (Sb _ _ S) O) as [Q|(n' & (S1 & S2) & Lt)]; [left; exact Q|right]. exists n'. split; [|exact Lt]. split; [apply Ml; exact S1|exact S2].
  - intros w n j n' I S1 S2 O. exact (un_names _ _ (lg_undisturbed _ _ _ _ Lg) w n j n' (Cw w I) (Sb _ _ S1) (Sb _ _ S2) O).
  - rewrite cut_length. lia.
Qed.
End Formula.
