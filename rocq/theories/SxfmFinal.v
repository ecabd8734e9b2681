(** Reading an SXFM document. *)
From Coq Require Import List ZArith NArith Arith Bool Ascii String Permutation Sorted Lia.
From Verif Require Import Text TextProofs LlvmInt ConstraintModel ConstraintSpec ConstraintParserModel ConstraintTokenSpec ConstraintParserProofs ConstraintLexerProofs ConstraintRoundTrip
  SourceRangeModel FeatureTreeModel FeatureTreeSpec FeatureTreeProofs FeatureTransactionModel FeatureEditSpec FeatureTransactionSpec FeatureBuildSpec FeatureBuildFinal
  SxfmModel SxfmSpec SxfmLineProofs SxfmTreeProofs SxfmTreeFinal SxfmBuildProofs SxfmFormulaSpec SxfmFormulaProofs SxfmClauseProofs.
Import ListNotations.
Local Open Scope string_scope.
Local Open Scope list_scope.
Local Open Scope nat_scope.

(** ** Parsing the formula *)
Lemma read_literal sci f l rest w : identifier (U (f (lit_word l))) -> rest_ok rest -> reads (num_of sci) rest w ->
  reads (num_of sci) (spelt f l ++ rest) (literal_symbols f l ++ w).
Proof.
  intros Id R H. unfold spelt, literal_symbols.
  assert (reads (num_of sci) (f (lit_word l) ++ rest) (ConstraintSpec.SName (U (f (lit_word l))) :: w)) as Hn.
  { rewrite <- (T_U (f (lit_word l))) at 1. destruct (identifier_chars _ Id) as (Ne & _). eapply reads_cons.
    - rewrite T_U. destruct (f (lit_word l)); [congruence|discriminate].
    - apply munch_name; assumption.
    - reflexivity.
    - rewrite skipn_app_exact. exact H.
    - cbn. rewrite T_U. reflexivity. }
  destruct (lit_negated l); cbn [sign T list_ascii_of_string app]; [|exact Hn].
  eapply reads_cons; [discriminate|apply munch_tilde|reflexivity| |reflexivity]. cbn [skipn]. exact Hn.
Qed.
Lemma read_formula sci f l r : (forall w, In w (literals l r) -> identifier (U (f w))) ->
  reads (num_of sci) (joined (spelt f l) (tokens_of f op_text r)) (formula_symbols f l r).
Proof.
  revert l. induction r as [|(o, x) r IH]; intros l Id.
  - unfold joined, formula_symbols. cbn [tokens_of flat_map]. apply read_literal; [apply Id; left; reflexivity|exact I|constructor].
  - assert (forall w, In w (literals x r) -> identifier (U (f w))) as Id' by (intros w W; apply Id; right; exact W).
    specialize (IH x Id'). unfold formula_symbols in *. cbn [flat_map fst snd].
    assert (joined (spelt f l) (tokens_of f op_text ((o, x) :: r)) = spelt f l ++ binop_text (op_of o) ++ joined (spelt f x) (tokens_of f op_text r)) as ->.
    { unfold joined. cbn [tokens_of flat_map app fst snd]. fold (tokens_of f op_text r). destruct o; reflexivity. }
    apply read_literal; [apply Id; left; reflexivity|apply rest_ok_binop|].
    assert (SInf (if o then BOr else BAnd) :: literal_symbols f x ++ flat_map (fun x0 : bool * literal => SInf (if fst x0 then BOr else BAnd) :: literal_symbols f (snd x0)) r =
      op_syms (op_of o) ++ literal_symbols f x ++ flat_map (fun x0 : bool * literal => SInf (if fst x0 then BOr else BAnd) :: literal_symbols f (snd x0)) r) as E by (destruct o; reflexivity).
    cbn [app]. rewrite E. apply read_infix; [destruct o; discriminate|destruct o; discriminate| |exact IH].
    unfold joined, spelt. pose proof (Id' (lit_word x) (or_introl eq_refl)) as Ix. destruct (lit_negated x); cbn [sign T list_ascii_of_string app].
    + split; [reflexivity|discriminate].
    + rewrite <- (T_U (f (lit_word x))) at 1. apply start_name. exact Ix.
Qed.
Lemma named_leaves_cmap c : named_leaves c = cmap (fun s => Own (T s)) c.
Proof. induction c as [o l IHl r IHr|o e IH|n|s]; cbn [named_leaves cmap]; congruence. Qed.

Section Constraints.
Variables (sci : text -> option text) (es : list entry) (m : list (text * text)) (or_first : bool).
Hypothesis Mk : NoDup (map fst m).
Hypothesis Ml : forall i n, lookup text_eqb i m = Some n <-> stands_for es i n.
Hypothesis Eo : forall e, In e es -> entry_ok e /\ id_apart e.

Lemma formula_visible l r : (forall w, In w (literals l r) -> word w) -> exists c u, formula_text l r = c :: u /\ is_space c = false.
Proof. intros W. destruct (formula_ends l r W) as (c & u & v & d & E & _ & H & _). exists c, u. split; assumption. Qed.

Lemma constraint_read l c : states es l c -> exists k, forall fuel, k <= fuel -> read_constraint sci fuel or_first m l = SxDone [BConstraint KBoolean (cmap (fun s => Own (T s)) c)].
Proof.
  intros H. destruct H as [label before x r after f c Nc Ol B A Lg Sp]. exists (2 * List.length r + 2). intros fuel L. unfold read_constraint.
  assert (blank (label ++ T ":" ++ before ++ formula_text x r ++ after) = false) as ->.
  { unfold blank. rewrite forallb_app. cbn [T list_ascii_of_string app forallb]. change (is_space ":") with false. apply andb_false_r. }
  assert (contains_char ":" (label ++ T ":" ++ before ++ formula_text x r ++ after) = true) as ->.
  { apply contains_char_spec. apply in_or_app. right. left. reflexivity. }
  cbn [negb]. rewrite (formula_of es m Mk Ml Eo fuel or_first label before x r after f Nc B A Lg ltac:(lia)).
  assert (parse_text sci (joined (spelt f x) (tokens_of f op_text r)) = Parsed c) as ->.
  { apply parse_text_spec.
    - unfold joined, spelt. destruct (lg_words _ _ _ _ Lg (lit_word x) (or_introl eq_refl)) as (_ & _ & Id & _). destruct (identifier_chars _ Id) as (Ne & _).
      destruct (sign (lit_negated x)); [|discriminate]. destruct (f (lit_word x)); [congruence|discriminate].
    - exists (formula_symbols f x r). split; [|exact Sp]. apply reads_literal. apply read_formula. intros w I. exact (proj1 (proj2 (proj2 (lg_words _ _ _ _ Lg w I)))). }
  rewrite named_leaves_cmap. reflexivity.
Qed.

Lemma stated_read ls cs : stated es ls cs -> exists k, forall fuel, k <= fuel -> forall acc,
  fold_left (fun o l => sx_bind o (fun cs => sx_bind (read_constraint sci fuel or_first m l) (fun c => SxDone (cs ++ c)))) ls (SxDone acc) =
  SxDone (acc ++ map (fun c => BConstraint KBoolean (cmap (fun s => Own (T s)) c)) cs).
Proof.
  intros H. induction H as [|l ls cs W H (k & IH)|l ls c cs S H (k & IH)].
  - exists 0. intros fuel _ acc. cbn. rewrite app_nil_r. reflexivity.
  - exists k. intros fuel L acc. cbn [fold_left sx_bind]. unfold read_constraint at 2. rewrite (white_blank l W). cbn [sx_bind]. rewrite app_nil_r. apply IH. exact L.
  - destruct (constraint_read l c S) as (k' & Hc). exists (max k k'). intros fuel L acc. cbn [fold_left sx_bind]. rewrite Hc by lia. cbn [sx_bind]. rewrite IH by lia. cbn [map]. rewrite <- app_assoc. reflexivity.
Qed.

Lemma states_one_line l c : states es l c -> one_line l.
Proof.
  intros H. destruct H as [label before x r after f c Nc Ol B A Lg Sp]. apply not_in_app; [exact Ol|]. apply not_in_app; [cbn; intuition discriminate|].
  apply not_in_app; [exact (white_line _ B)|]. apply not_in_app; [|exact (white_line _ A)].
  assert (forall w, In w (literals x r) -> word w) as W by (intros w I; exact (proj1 (lg_words _ _ _ _ Lg w I))).
  assert (forall w, word w -> ~ In newline w) as Wn by (intros w (_ & Hw) I; specialize (Hw _ I); discriminate Hw).
  assert (forall b, ~ In newline (sign b)) as Sn by (intros []; cbn; intuition discriminate).
  unfold formula_text. apply not_in_app; [apply Sn|]. apply not_in_app; [apply Wn, W; left; reflexivity|]. intros I. apply in_flat_map in I. destruct I as ((o, y) & Iy & I). cbn [fst snd] in I.
  assert (~ In newline (T " " ++ connective o ++ T " " ++ sign (lit_negated y) ++ lit_word y)) as N; [|contradiction].
  apply not_in_app; [cbn; intuition discriminate|]. apply not_in_app; [destruct o; cbn; intuition discriminate|]. apply not_in_app; [cbn; intuition discriminate|]. apply not_in_app; [apply Sn|].
  apply Wn, W. right. apply in_map_iff. exists (o, y). split; [reflexivity|exact Iy].
Qed.
Lemma stated_one_line ls cs : stated es ls cs -> Forall one_line ls.
Proof. intros H. induction H as [|l ls cs W H IH|l ls c cs S H IH]; constructor; [apply white_line; exact W|exact IH|exact (states_one_line l c S)|exact IH]. Qed.

Theorem constraints_read t cs : constraints_text es cs t -> exists k, forall fuel, k <= fuel ->
  read_constraints sci fuel or_first m t = SxDone (map (fun c => BConstraint KBoolean (cmap (fun s => Own (T s)) c)) cs).
Proof.
  intros (ls & last & -> & H). destruct (stated_read _ _ H) as (k & Hk). exists k. intros fuel L. unfold read_constraints. rewrite split_all by exact (stated_one_line _ _ H). exact (Hk fuel L []).
Qed.
End Constraints.

(** ** Keys are stored once *)
Lemma put_keys {V} k (v : V) l : NoDup (map fst l) -> NoDup (map fst (put text_eqb k v l)).
Proof.
  intros D. assert (forall x, In x (map fst (put text_eqb k v l)) -> x = k \/ In x (map fst l)) as Inc.
  { clear D. induction l as [|(a, b) l IH]; intros x I; cbn [put] in I; [destruct I as [I|[]]; left; symmetry; exact I|]. destruct (text_eqb k a); cbn [map fst] in I |- *; destruct I as [I|I].
    - left. symmetry. exact I.
    - right. right. exact I.
    - right. left. exact I.
    - destruct (IH x I) as [J|J]; [left; exact J|right; right; exact J]. }
  induction l as [|(a, b) l IH]; cbn [put]; [repeat constructor; intros []|]. cbn [map fst] in D. apply NoDup_cons_iff in D. destruct D as (N & D). destruct (text_eqb k a) eqn:E.
  - apply text_eqb_eq in E. subst a. cbn [map fst]. constructor; assumption.
  - apply text_eqb_neq in E. assert (forall x, In x (map fst (put text_eqb k v l)) -> x = k \/ In x (map fst l)) as Inc2.
    { intros x I. specialize (Inc x). cbn [put] in Inc. apply text_eqb_neq in E. rewrite E in Inc. cbn [map fst] in Inc. apply text_eqb_neq in E.
      assert (forall l0 : list (text * V), In x (map fst (put text_eqb k v l0)) -> x = k \/ In x (map fst l0)) as G; [|exact (G l I)].
      clear. induction l0 as [|(a, b) l0 IH]; intros I; cbn [put] in I; [destruct I as [I|[]]; left; symmetry; exact I|]. destruct (text_eqb k a); cbn [map fst] in I |- *; destruct I as [I|I]; [left; symmetry; exact I|right; right; exact I|right; left; exact I|].
      destruct (IH I) as [J|J]; [left; exact J|right; right; exact J]. }
    cbn [map fst]. constructor; [|apply IH; [exact D|exact Inc2]]. intros I. destruct (Inc2 a I) as [Q|Q]; [congruence|contradiction].
Qed.
Lemma store_keys n is : forall ids r, NoDup (map fst ids) -> store_ids n is ids = Some r -> NoDup (map fst r).
Proof.
  induction is as [|i is IH]; intros ids r D E; cbn [store_ids] in E; [injection E as <-; exact D|]. destruct (negb (text_eqb i n) && contains_text i n); [discriminate|].
  eapply IH; [|exact E]. apply put_keys. exact D.
Qed.
Lemma line_keys ind s l s' : NoDup (map fst (s_ids s)) -> read_line ind s l = SxDone s' -> NoDup (map fst (s_ids s')).
Proof.
  intros D. unfold read_line. destruct (blank l); [intros E; injection E as <-; exact D|]. destruct (negb (contains_char ":" l)); [discriminate|]. cbv zeta.
  match goal with |- (if ?b then _ else _) = _ -> _ => destruct b; [discriminate|] end. destruct (parse_line ind (level_of ind l) l) as [ln| | | |]; try discriminate. cbn [sx_bind].
  destruct (store_ids (l_name ln) (l_ids ln) (s_ids s)) as [ids|] eqn:St; [|discriminate]. pose proof (store_keys _ _ _ _ D St) as D'.
  destruct (match l_name ln with [] => _ | _ => _ end) as (cnt, nm). destruct (s_last s) as [k|].
  - destruct (level_of ind l =? s_root s); [discriminate|]. destruct (level_of ind l) as [|p]; [discriminate|]. destruct (lookup Nat.eqb p _); [|discriminate]. intros E. injection E as <-. exact D'.
  - intros E. injection E as <-. exact D'.
Qed.
Lemma tree_keys order ind t cs ids : read_tree order ind t = SxDone (cs, ids) -> NoDup (map fst ids).
Proof.
  unfold read_tree. intros E. assert (forall ls s s', NoDup (map fst (s_ids s)) -> all_lines ind ls (SxDone s) = SxDone s' -> NoDup (map fst (s_ids s'))) as H.
  { induction ls as [|l ls IH]; intros s s' D F; [injection F as <-; exact D|]. cbn [all_lines fold_left sx_bind] in F. fold (all_lines ind ls (read_line ind s l)) in F.
    destruct (read_line ind s l) as [s1| | | |] eqn:R; try (rewrite all_lines_stop in F by discriminate; discriminate F). exact (IH s1 s' (line_keys ind s l s1 D R) F). }
  fold (all_lines ind (split_lines t) (SxDone state_start)) in E. destruct (all_lines ind (split_lines t) (SxDone state_start)) as [s| | | |] eqn:F; try discriminate. cbn [sx_bind] in E. injection E as _ <-.
  refine (H (split_lines t) state_start s _ F). constructor.
Qed.

(** ** Whole documents *)
Lemma spelled_leaves : (forall w c, unary w c -> leaves c = flat_map (fun s => match s with ConstraintSpec.SName n => [n] | _ => [] end) w) /\
  (forall p w c, expr p w c -> leaves c = flat_map (fun s => match s with ConstraintSpec.SName n => [n] | _ => [] end) w).
Proof.
  assert (forall p w c, expr p w c -> leaves c = flat_map (fun s => match s with ConstraintSpec.SName n => [n] | _ => [] end) w) as H.
  { fix IH 4. intros p w c E. destruct E as [p w c Hu|p o wl wr l r Lv El Er].
    - revert w c Hu. fix IHu 3. intros w c Hu. destruct Hu as [n|s|o w c Hu|w c He]; [reflexivity|reflexivity|exact (IHu w c Hu)|].
      cbn [flat_map]. rewrite flat_map_app. cbn [flat_map]. rewrite !app_nil_r. exact (IH 9 w c He).
    - cbn [leaves]. rewrite flat_map_app. cbn [flat_map]. rewrite (IH _ _ _ El), (IH _ _ _ Er). reflexivity. }
  split; [|exact H]. intros w c Hu. exact (H 9 w c (e_unary 9 w c Hu)).
Qed.
Lemma states_leaves es l c : states es l c -> forall s, In s (leaves c) -> exists w, means es w (T s).
Proof.
  intros H. destruct H as [label before x r after f c Nc Ol B A Lg Sp]. intros s I. rewrite (proj2 spelled_leaves _ _ _ Sp) in I.
  apply in_flat_map in I. destruct I as (y & I & J). destruct y; try contradiction. destruct J as [<-|[]].
  assert (exists w, In w (literals x r) /\ s0 = U (f w)) as (w & Iw & ->).
  { unfold formula_symbols in I. apply in_app_or in I. assert (forall z, In (ConstraintSpec.SName s0) (literal_symbols f z) -> s0 = U (f (lit_word z))) as Q.
    { intros z Z. unfold literal_symbols in Z. apply in_app_or in Z. destruct Z as [Z|[Z|[]]]; [destruct (lit_negated z); [destruct Z as [Z|[]]; discriminate|destruct Z]|]. injection Z as <-. reflexivity. }
    destruct I as [I|I]; [exists (lit_word x); split; [left; reflexivity|exact (Q _ I)]|]. apply in_flat_map in I. destruct I as (z & Iz & [I|I]); [discriminate|].
    exists (lit_word (snd z)). split; [right; apply in_map_iff; exists z; split; [reflexivity|exact Iz]|exact (Q _ I)]. }
  exists w. rewrite T_U. exact (proj1 (proj2 (lg_words _ _ _ _ Lg w Iw))).
Qed.

Lemma leaves_cmap {F G} (f : F -> G) c : leaves (cmap f c) = map f (leaves c).
Proof. induction c as [o l IHl r IHr|o e IH|n|s]; cbn [cmap leaves map]; [rewrite map_app; congruence|exact IH|reflexivity|reflexivity]. Qed.

Theorem document_read ord sci order or_first h d n ind es cs :
  is_order ord -> (forall l, Permutation (order l) l) -> heap_ok h -> d_name d = Some n ->
  ind = match d_indentation d with Some i => i | None => [ascii_of_nat 9] end -> indentation_ok ind ->
  (forall e, In e es -> entry_ok e /\ id_apart e) -> tree_ok es -> tree_text ind es (d_tree d) ->
  match d_constraints d with Some t => constraints_text es cs t | None => cs = [] end -> names_known es cs ->
  exists k, forall fuel, k <= fuel -> exists h' m, read_sxfm ord sci order fuel or_first h d = SxDone (h', Some m) /\ heap_ok h' /\
    m_name m = n /\ as_indented es h' m /\
    Forall2 (fun c x => c_expr x = cmap (fun s => pointing m (Own (T s))) c) cs (m_boolean m) /\ m_nonboolean m = [] /\ m_mixed m = [].
Proof.
  intros Oo Or K Dn Ei Io Eo To Tt Dc Nk. destruct To as [(e & r & -> & Me & Mr) Nl Wi].
  destruct (tree_read order Or ind (e :: r) (d_tree d) Io Eo Wi Tt) as (tc & ids & Rt & Tc & Il). pose proof (tree_keys _ _ _ _ _ Rt) as Kn.
  set (ks := map (fun c => BConstraint KBoolean (cmap (fun s => Own (T s)) c)) cs).
  assert (exists k, forall fuel, k <= fuel -> read_calls sci order fuel or_first d = SxDone (BName n :: tc ++ ks)) as (k & Hk).
  { unfold read_calls. rewrite Dn. unfold default_indentation. rewrite <- Ei, Rt. cbn [sx_bind fst snd]. destruct (d_constraints d) as [t|].
    - destruct (constraints_read sci (e :: r) ids or_first Kn Il Eo t cs Dc) as (k & Hk). exists k. intros fuel L. rewrite (Hk fuel L). reflexivity.
    - exists 0. intros fuel _. subst cs. unfold ks. cbn [map]. rewrite app_nil_r. reflexivity. }
  exists k. intros fuel L. unfold read_sxfm. rewrite (Hk fuel L). cbn [sx_bind].
  assert (forall c, In c ks -> match c with BConstraint _ x => forall y, In y (leaves x) -> exists s, y = Own s /\ In s (labels (e :: r)) | _ => False end) as Ck.
  { intros c I. apply in_map_iff in I. destruct I as (x & <- & I). intros y Y. rewrite leaves_cmap in Y. apply in_map_iff in Y. destruct Y as (s & <- & Y). exists (T s). split; [reflexivity|]. exact (Nk x s I Y). }
  assert (exists r0 rs, labels (e :: r) = r0 :: rs) as (r0 & rs & Lb).
  { pose proof (labels_length (e :: r)) as Ll. destruct (labels (e :: r)) as [|r0 rs]; [discriminate Ll|]. exists r0, rs. reflexivity. }
  pose proof (tree_describes e r tc ks n Me Mr Nl Wi Tc Ck r0 rs Lb) as Ds.
  destruct (built ord Oo h _ _ K Ds) as (h' & m & Eb & Ad & K'). rewrite Eb. exists h', m. split; [reflexivity|]. split; [exact K'|].
  assert (forall c, In c tc -> match c with BName _ | BConstraint _ _ => False | _ => True end) as Rest by (intros c I; pose proof (tc_rest _ _ Tc c I); destruct c; tauto).
  assert (constraints_of (BName n :: tc ++ ks) = map (fun c => (KBoolean, cmap (fun s => Own (T s)) c)) cs) as Co.
  { unfold constraints_of. cbn [flat_map app]. rewrite flat_map_app. assert (flat_map (fun c => match c with BConstraint k0 e0 => [(k0, e0)] | _ => [] end) tc = []) as ->.
    { revert Rest. clear. induction tc as [|c l IH]; intros H; [reflexivity|]. cbn [flat_map]. rewrite IH by (intros x X; apply H; right; exact X). pose proof (H c (or_introl eq_refl)). destruct c; try contradiction; reflexivity. }
    unfold ks. clear. cbn [app]. induction cs as [|c l IH]; [reflexivity|]. cbn [map flat_map app]. f_equal. exact IH. }
  split; [|split; [exact (described_indented e r tc ks n Me Mr Nl Tc Ck r0 rs Lb h' m Ad)|]].
  - rewrite (ad_name _ _ _ _ Ad). unfold last_name. cbn [fold_left]. rewrite fold_left_app. assert (forall l d0, (forall c, In c l -> match c with BName _ => False | _ => True end) -> fold_left (fun d0 c => match c with BName s => s | _ => d0 end) l d0 = d0) as Q.
    { clear. induction l as [|c l IH]; intros d0 H; [reflexivity|]. cbn [fold_left]. pose proof (H c (or_introl eq_refl)). destruct c; try contradiction; apply IH; intros x X; apply H; right; exact X. }
    rewrite !Q; [reflexivity| |].
    + intros c I. specialize (Rest c I). destruct c; tauto.
    + intros c I. unfold ks in I. apply in_map_iff in I. destruct I as (x & <- & _). exact Logic.I.
  - pose proof (ad_boolean _ _ _ _ Ad) as Ab. pose proof (ad_nonboolean _ _ _ _ Ad) as An. pose proof (ad_mixed _ _ _ _ Ad) as Am. rewrite Co in Ab, An, Am. split; [|split].
    + assert (flat_map (fun x : ckind * cexpr cref => match fst x with KBoolean => [snd x] | _ => [] end) (map (fun c => (KBoolean, cmap (fun s => Own (T s)) c)) cs) = map (cmap (fun s => Own (T s))) cs) as Q
        by (clear; induction cs as [|c l IH]; [reflexivity|]; cbn [map flat_map fst snd app]; f_equal; exact IH).
      rewrite Q in Ab. clear - Ab. remember (map (cmap (fun s => Own (T s))) cs) as l eqn:E. revert cs E. induction Ab as [|a x l xs H Ab IH]; intros cs E; destruct cs as [|c cs]; try discriminate; [constructor|].
      injection E as -> E. constructor; [|apply IH; exact E]. unfold links_to in H. rewrite H. clear. induction c as [o l IHl r IHr|o e IH|z|s]; cbn [cmap]; congruence.
    + assert (flat_map (fun x : ckind * cexpr cref => match fst x with KNonBoolean => [snd x] | _ => [] end) (map (fun c => (KBoolean, cmap (fun s => Own (T s)) c)) cs) = []) as Q
        by (clear; induction cs as [|c l IH]; [reflexivity|]; cbn [map flat_map fst snd app]; exact IH).
      rewrite Q in An. inversion An. reflexivity.
    + assert (flat_map (fun x : ckind * cexpr cref => match fst x with KMixed r0 k0 => [((r0, k0), snd x)] | _ => [] end) (map (fun c => (KBoolean, cmap (fun s => Own (T s)) c)) cs) = []) as Q
        by (clear; induction cs as [|c l IH]; [reflexivity|]; cbn [map flat_map fst snd app]; exact IH).
      rewrite Q in Am. inversion Am. reflexivity.
Qed.
