(** Reading a whole feature tree in the SXFM format. *)
From Coq Require Import List ZArith NArith Arith Bool Ascii String Permutation Lia.
From Verif Require Import Text TextProofs LlvmInt ConstraintModel ConstraintParserModel SourceRangeModel FeatureTreeModel FeatureTransactionModel FeatureBuildSpec
  SxfmModel SxfmSpec SxfmLineProofs SxfmTreeProofs.
Import ListNotations.
Local Open Scope string_scope.
Local Open Scope list_scope.
Local Open Scope nat_scope.

Lemma levels_cons e es : levels (e :: es) = e_level e :: levels es.
Proof. reflexivity. Qed.
Lemma last_nth {A} (l : list A) d : l <> [] -> nth_error l (List.length l - 1) = Some (last l d).
Proof.
  intros N. destruct (exists_last N) as (r & x & ->). rewrite last_last, app_length. cbn [List.length].
  replace (List.length r + 1 - 1) with (List.length r) by lia. rewrite nth_error_app2, Nat.sub_diag by lia. reflexivity.
Qed.

(** The level of the first and the last entry. *)
Lemma ends e es s : reading (e :: es) s -> s_root s = e_level e /\ s_last s = Some (last (levels es) (e_level e)).
Proof.
  intros R. split.
  - pose proof (r_root _ _ R ltac:(discriminate)) as H. cbn in H. congruence.
  - rewrite (r_last _ _ R). rewrite <- (levels_length (e :: es)). rewrite (last_nth _ 0) by discriminate. rewrite levels_cons, last_cons. reflexivity.
Qed.

Lemma no_level es s k l r : reading es s -> levels es = l :: r -> indented l l r -> k < l -> lookup Nat.eqb k (s_parents s) = None.
Proof.
  intros R El I Lk. destruct (lookup Nat.eqb k (s_parents s)) as [n|] eqn:E; [|reflexivity]. exfalso.
  apply (r_parents _ _ R) in E. destruct E as (j & (A & _) & _). rewrite El in A.
  assert (forall q ls m, indented l q ls -> In m ls -> l < m) as H.
  { clear. intros q ls. revert q. induction ls as [|x ls IH]; intros q m J M; [destruct M|]. cbn [indented] in J. destruct M as [<-|M]; [lia|]. exact (IH x m (proj2 J) M). }
  apply nth_error_In in A. destruct A as [A|A]; [lia|]. specialize (H _ _ _ I A). lia.
Qed.

Lemma step_good ind es s e l : indentation_ok ind -> reading es s -> entry_ok e -> id_apart e -> writes ind e l -> well_indented (levels (es ++ [e])) ->
  exists s', read_line ind s l = SxDone s' /\ reading (es ++ [e]) s'.
Proof.
  intros Io R Eo A W Wi. rewrite (read_written ind es s e l Io R Eo W). pose proof (proj1 (apart_check e) A) as C. rewrite C. cbn [negb].
  destruct es as [|x xs].
  - assert (s_last s = None) as -> by (rewrite (r_last _ _ R); reflexivity).
    apply step_reading; [exact R|congruence|intros _; split; reflexivity|congruence].
  - destruct (ends _ _ _ R) as (Er & El). rewrite El, Er.
    rewrite levels_snoc, levels_cons in Wi. cbn [app well_indented] in Wi. apply indented_app in Wi. destruct Wi as (Wi & Lo & Hi).
    assert (last (levels xs) (e_level x) + 1 <? e_level e = false) as -> by (apply Nat.ltb_ge; lia).
    assert (e_level e =? e_level x = false) as -> by (apply Nat.eqb_neq; lia).
    destruct (e_level e) as [|k] eqn:Ek; [lia|].
    rewrite (put_lookup Nat.eqb nat_eqb_ok). replace (k =? S k) with false by (symmetry; apply Nat.eqb_neq; lia).
    destruct (level_seen (e_level x) (levels xs) k Wi ltac:(lia)) as (j & Aj).
    assert (exists q, nth_error (labels (x :: xs)) j = Some q) as (q & Eq).
    { destruct Aj as (Aj & _). apply nth_below in Aj. destruct (nth_error (labels (x :: xs)) j) as [q|] eqn:E; [exists q; reflexivity|].
      apply nth_error_None in E. rewrite labels_length in E. rewrite <- levels_cons, levels_length in Aj. lia. }
    rewrite (proj2 (r_parents _ _ R k q) (ex_intro _ j (conj Aj Eq))).
    rewrite <- Ek. apply step_reading; [exact R|intros _; symmetry; exact Er|congruence|].
    intros _. exists k, q. split; [exact Ek|]. split; [reflexivity|]. exists j. split; [exact Aj|exact Eq].
Qed.

(** ** Folding over the lines *)
Definition all_lines ind ls o := fold_left (fun o l => sx_bind o (fun s => read_line ind s l)) ls o.
Lemma all_lines_stop ind ls (o : sx state) : (forall s, o <> SxDone s) -> all_lines ind ls o = o.
Proof. intros N. induction ls as [|l ls IH]; [reflexivity|]. cbn [all_lines fold_left]. destruct o; try exact IH. exfalso. exact (N a eq_refl). Qed.
Lemma all_lines_app ind a b o : all_lines ind (a ++ b) o = all_lines ind b (all_lines ind a o).
Proof. apply fold_left_app. Qed.

Lemma blank_line ind s l : Forall white l -> read_line ind s l = SxDone s.
Proof. intros F. unfold read_line. rewrite (white_blank l F). reflexivity. Qed.

Lemma well_indented_app a b : well_indented (a ++ b) -> well_indented a.
Proof.
  destruct a as [|x a]; [intros _; exact I|]. cbn [app well_indented]. generalize x at 2 4. induction a as [|y a IH]; intros z H; [exact I|].
  cbn [app indented] in H |- *. split; [exact (proj1 H)|]. apply IH. exact (proj2 H).
Qed.

Lemma all_lines_good ind ls es : indentation_ok ind -> pages ind ls es -> (forall e, In e es -> entry_ok e /\ id_apart e) ->
  forall before s, reading before s -> well_indented (levels (before ++ es)) ->
  exists s', all_lines ind ls (SxDone s) = SxDone s' /\ reading (before ++ es) s'.
Proof.
  intros Io P. induction P as [|l ls es F P IH|l ls e es W P IH]; intros G before s R Wi.
  - exists s. split; [reflexivity|]. rewrite app_nil_r. exact R.
  - cbn [all_lines fold_left sx_bind]. rewrite (blank_line ind s l F). apply IH; assumption.
  - cbn [all_lines fold_left sx_bind]. destruct (G e (or_introl eq_refl)) as (Eo & A).
    assert (well_indented (levels (before ++ [e]))) as Wb.
    { apply (well_indented_app _ (levels es)). unfold levels in *. rewrite <- map_app, <- app_assoc. exact Wi. }
    destruct (step_good ind before s e l Io R Eo A W Wb) as (s' & -> & R').
    change (before ++ e :: es) with (before ++ [e] ++ es) in Wi |- *. rewrite app_assoc in Wi |- *.
    apply IH; [intros e' I'; apply G; right; exact I'|exact R'|exact Wi].
Qed.

Lemma pages_one_line ind ls es : indentation_ok ind -> pages ind ls es -> (forall e, In e es -> entry_ok e) -> Forall one_line ls.
Proof.
  intros Io P. induction P as [|l ls es F P IH|l ls e es W P IH]; intros G; constructor.
  - apply white_line; exact F.
  - apply IH; exact G.
  - apply (written_line ind e l Io); [apply G; left; reflexivity|exact W].
  - apply IH. intros e' I'. apply G. right. exact I'.
Qed.

Section Trees.
Variable order : list (nat * (text * rkind)) -> list (nat * (text * rkind)).
Hypothesis order_ok : forall l, Permutation (order l) l.

Lemma close_groups gs : declaring (map (fun g : nat * (text * rkind) => BRelationship (snd (snd g)) (fst (snd g))) gs) = [] /\
  edges (map (fun g : nat * (text * rkind) => BRelationship (snd (snd g)) (fst (snd g))) gs) = [] /\
  requests (map (fun g : nat * (text * rkind) => BRelationship (snd (snd g)) (fst (snd g))) gs) = map snd gs.
Proof.
  induction gs as [|(a, (n, k)) gs (H1 & H2 & H3)]; [repeat split|]. cbn [map fst snd]. split; [exact H1|]. split; [exact H2|].
  change (requests (BRelationship k n :: ?l)) with ((n, k) :: requests l). cbn [requests flat_map app]. f_equal. exact H3.
Qed.

Theorem tree_read ind es t : indentation_ok ind -> (forall e, In e es -> entry_ok e /\ id_apart e) -> well_indented (levels es) -> tree_text ind es t ->
  exists cs ids, read_tree order ind t = SxDone (cs, ids) /\ tree_calls es cs /\ forall i n, lookup text_eqb i ids = Some n <-> stands_for es i n.
Proof.
  intros Io G Wi (ls & last & -> & P). unfold read_tree.
  rewrite split_all by (apply (pages_one_line ind _ es Io P); intros e I; exact (proj1 (G e I))).
  destruct (all_lines_good ind _ es Io P G [] state_start reading_start Wi) as (s & E & R). cbn [app] in R.
  unfold all_lines in E. rewrite E. cbn [sx_bind]. eexists; eexists. split; [reflexivity|]. split; [|exact (r_ids _ _ R)].
  destruct (close_groups (order (s_groups s))) as (C1 & C2 & C3). constructor.
  - rewrite declaring_app, C1, app_nil_r. exact (r_declared _ _ R).
  - rewrite edges_app, C2, app_nil_r. exact (r_edges _ _ R).
  - rewrite requests_app, C3. eapply Permutation_trans; [|exact (r_groups _ _ R)]. apply Permutation_app_head. apply Permutation_map. apply order_ok.
  - intros c I. apply in_app_or in I. destruct I as [I|I]; [exact (r_rest _ _ R c I)|]. apply in_map_iff in I. destruct I as (g & <- & _). exact Logic.I.
Qed.

(** A text whose first entries are fine, followed by lines that are not. *)
Lemma tree_stops ind before l after last : indentation_ok ind -> forall es, (forall e, In e es -> entry_ok e /\ id_apart e) -> well_indented (levels es) ->
  pages ind before es -> Forall one_line ((l :: after) ++ [last]) ->
  forall o : sx (list bcall * list (text * text)),
  (forall s, reading es s -> match o with SxDone _ => False | SxRefused => read_line ind s l = SxRefused | SxThrown => read_line ind s l = SxThrown
     | SxUndefined => read_line ind s l = SxUndefined | SxEndless => read_line ind s l = SxEndless end) ->
  read_tree order ind (lines (before ++ l :: after) last) = o.
Proof.
  intros Io es G Wi P F o H. unfold read_tree.
  rewrite split_all.
  2: { rewrite <- app_assoc. apply Forall_app. split; [|exact F]. apply (pages_one_line ind _ es Io P). intros e I. exact (proj1 (G e I)). }
  destruct (all_lines_good ind _ es Io P G [] state_start reading_start Wi) as (s & E & R). cbn [app] in R.
  rewrite <- app_assoc. cbn [app]. fold (all_lines ind (before ++ l :: after ++ [last]) (SxDone state_start)). rewrite all_lines_app, E.
  cbn [all_lines fold_left sx_bind]. specialize (H s R).
  fold (all_lines ind (after ++ [last]) (read_line ind s l)).
  destruct o; try contradiction; rewrite H, all_lines_stop by discriminate; reflexivity.
Qed.

Theorem over_indented ind first es e before l after last :
  indentation_ok ind -> (forall x, In x (first :: es) -> entry_ok x /\ id_apart x) -> well_indented (levels (first :: es)) -> entry_ok e ->
  pages ind before (first :: es) -> writes ind e l -> Forall one_line (after ++ [last]) ->
  S (List.last (levels es) (e_level first)) < e_level e \/ e_level e = e_level first ->
  read_tree order ind (lines (before ++ l :: after) last) = SxRefused.
Proof.
  intros Io G Wi Eo P W F B. apply (tree_stops ind before l after last Io (first :: es) G Wi P); [constructor; [exact (written_line ind e l Io Eo W)|exact F]|].
  intros s R. rewrite (read_written ind _ s e l Io R Eo W). destruct (ends _ _ _ R) as (Er & El). rewrite El, Er.
  destruct (Nat.ltb_spec (List.last (levels es) (e_level first) + 1) (e_level e)) as [L|L]; [reflexivity|].
  match goal with |- context [if negb ?c then _ else _] => destruct (negb c); [reflexivity|] end.
  destruct B as [B|B]; [lia|]. rewrite B, Nat.eqb_refl. reflexivity.
Qed.

Theorem left_of_root ind first es e before l after last :
  indentation_ok ind -> (forall x, In x (first :: es) -> entry_ok x /\ id_apart x) -> well_indented (levels (first :: es)) -> entry_ok e -> id_apart e ->
  pages ind before (first :: es) -> writes ind e l -> Forall one_line (after ++ [last]) ->
  e_level e < e_level first ->
  read_tree order ind (lines (before ++ l :: after) last) = SxUndefined.
Proof.
  intros Io G Wi Eo A P W F B. apply (tree_stops ind before l after last Io (first :: es) G Wi P); [constructor; [exact (written_line ind e l Io Eo W)|exact F]|].
  intros s R. rewrite (read_written ind _ s e l Io R Eo W). destruct (ends _ _ _ R) as (Er & El). rewrite El, Er.
  pose proof (proj1 (apart_check e) A) as C. rewrite C. cbn [negb].
  assert (e_level first <= List.last (levels es) (e_level first)) as Lf.
  { cbn [levels map well_indented] in Wi. fold (levels es) in Wi. destruct (levels es) as [|x r] eqn:E; [cbn; lia|].
    destruct (@exists_last _ (x :: r) ltac:(discriminate)) as (r' & y & E'). rewrite E' in Wi |- *. rewrite last_last. apply indented_app in Wi. lia. }
  replace (List.last (levels es) (e_level first) + 1 <? e_level e) with false by (symmetry; apply Nat.ltb_ge; lia).
  replace (e_level e =? e_level first) with false by (symmetry; apply Nat.eqb_neq; lia).
  destruct (e_level e) as [|k] eqn:Ek; [reflexivity|].
  rewrite (put_lookup Nat.eqb nat_eqb_ok). replace (k =? S k) with false by (symmetry; apply Nat.eqb_neq; lia).
  rewrite (no_level _ s k (e_level first) (levels es) R); [reflexivity|reflexivity|exact Wi|lia].
Qed.

Theorem id_in_name ind es e before l after last :
  indentation_ok ind -> (forall x, In x es -> entry_ok x /\ id_apart x) -> well_indented (levels es) -> entry_ok e -> ~ id_apart e ->
  pages ind before es -> writes ind e l -> Forall one_line (after ++ [last]) ->
  read_tree order ind (lines (before ++ l :: after) last) = SxRefused.
Proof.
  intros Io G Wi Eo A P W F. apply (tree_stops ind before l after last Io es G Wi P); [constructor; [exact (written_line ind e l Io Eo W)|exact F]|].
  intros s R. rewrite (read_written ind _ s e l Io R Eo W).
  match goal with |- context [negb ?c] => destruct c eqn:C end; [exfalso; apply A; apply apart_check; exact C|]. cbn [negb].
  destruct (s_last s) as [k|]; [destruct (k + 1 <? e_level e); reflexivity|reflexivity].
Qed.

(** Lines without a colon, without anything behind it, and with an unknown mark. *)
Lemma space_white c : is_space c = true -> c <> newline -> white c.
Proof.
  unfold is_space, white, newline. intros H N. assert (code c <> 10) as N'. { intros E. apply N. unfold code in E. rewrite <- E. symmetry. apply ascii_nat_embedding. }
  cbn [In]. apply orb_prop in H. destruct H as [H|H]; [apply Nat.eqb_eq in H; lia|]. apply andb_prop in H. destruct H as (H1 & H2). apply Nat.leb_le in H1, H2. lia.
Qed.
Lemma not_blank l : one_line l -> (exists c, In c l /\ ~ white c) -> blank l = false.
Proof.
  intros O (c & I & N). destruct (blank l) eqn:B; [|reflexivity]. exfalso. unfold blank in B. rewrite forallb_forall in B. apply N. apply space_white; [exact (B c I)|].
  intros ->. exact (O I).
Qed.
Theorem no_colon ind es before l after last :
  indentation_ok ind -> (forall x, In x es -> entry_ok x /\ id_apart x) -> well_indented (levels es) ->
  pages ind before es -> Forall one_line ((l :: after) ++ [last]) -> (exists c, In c l /\ ~ white c) -> ~ In ":"%char l ->
  read_tree order ind (lines (before ++ l :: after) last) = SxRefused.
Proof.
  intros Io G Wi P F V N. apply (tree_stops ind before l after last Io es G Wi P F). intros s _. unfold read_line.
  rewrite (not_blank l (Forall_inv F) V). apply contains_char_false in N. rewrite N. reflexivity.
Qed.

Lemma unmarked_line ind s k b : indentation_ok ind -> match s_last s with Some n => k <= S n | None => True end ->
  match b with [] => True | c :: _ => ~ In c (T "rmog ") end ->
  read_line ind s (List.concat (repeat ind k) ++ T ":" ++ b) = match b with [] => SxThrown | _ => SxRefused end.
Proof.
  intros Io L B. unfold read_line.
  assert (blank (List.concat (repeat ind k) ++ T ":" ++ b) = false) as ->.
  { unfold blank. rewrite forallb_app. cbn [T list_ascii_of_string app forallb]. change (is_space ":") with false. apply andb_false_r. }
  assert (contains_char ":" (List.concat (repeat ind k) ++ T ":" ++ b) = true) as ->.
  { apply contains_char_spec. apply in_or_app. right. left. reflexivity. }
  cbn [negb]. rewrite (level_written ind k b Io).
  assert (match s_last s with Some l => l + 1 <? k | None => false end = false) as ->. { destruct (s_last s); [apply Nat.ltb_ge; lia|reflexivity]. }
  unfold parse_line. change (T ":" ++ b) with (":"%char :: b). rewrite nth_behind by (rewrite repeat_length; lia).
  destruct b as [|c b]; [reflexivity|]. cbn [nth_error]. cbn [T list_ascii_of_string In] in B.
  assert (Ascii.eqb c "r" = false /\ Ascii.eqb c "m" = false /\ Ascii.eqb c "o" = false /\ Ascii.eqb c "g" = false /\ Ascii.eqb c " " = false) as (-> & -> & -> & -> & ->)
    by (repeat split; apply Ascii.eqb_neq; intros ->; tauto).
  reflexivity.
Qed.

Theorem unmarked ind first es before k b after last :
  indentation_ok ind -> (forall x, In x (first :: es) -> entry_ok x /\ id_apart x) -> well_indented (levels (first :: es)) ->
  pages ind before (first :: es) -> Forall one_line (b :: after ++ [last]) -> k <= S (List.last (levels es) (e_level first)) ->
  match b with [] => True | c :: _ => ~ In c (T "rmog ") end ->
  read_tree order ind (lines (before ++ (List.concat (repeat ind k) ++ T ":" ++ b) :: after) last) = match b with [] => SxThrown | _ => SxRefused end.
Proof.
  intros Io G Wi P F L B. apply (tree_stops ind before _ after last Io (first :: es) G Wi P).
  - constructor; [|exact (Forall_inv_tail F)]. apply not_in_app; [intros I; apply in_repeat in I; exact (proj2 (proj2 Io) I)|].
    apply not_in_app; [cbn; intuition discriminate|exact (Forall_inv F)].
  - intros s R. destruct (ends _ _ _ R) as (_ & El). pose proof (unmarked_line ind s k b Io ltac:(rewrite El; exact L) B) as H. destruct b; exact H.
Qed.
End Trees.
