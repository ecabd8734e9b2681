(** Reading the lines of a feature tree. *)
From Coq Require Import List ZArith NArith Arith Bool Ascii String Permutation Lia.
From Verif Require Import Text TextProofs LlvmInt ConstraintModel ConstraintParserModel SourceRangeModel FeatureTreeModel FeatureTransactionModel FeatureBuildSpec
  SxfmModel SxfmSpec SxfmLineProofs.
Import ListNotations.
Local Open Scope string_scope.
Local Open Scope list_scope.
Local Open Scope nat_scope.

(** ** Lines *)
Lemma code_newline : code newline = 10.
Proof. reflexivity. Qed.
Lemma split_line l t : one_line l -> split_lines (l ++ newline :: t) = l :: split_lines t.
Proof.
  unfold one_line. induction l as [|c l IH]; intros N; cbn [app split_lines].
  - rewrite code_newline. reflexivity.
  - destruct (Nat.eqb_spec (code c) 10) as [E|_].
    + exfalso. apply N. left. apply code_inj. exact E.
    + rewrite IH; [reflexivity|]. intros I. apply N. right. exact I.
Qed.
Lemma split_last l : one_line l -> split_lines l = [l].
Proof.
  unfold one_line. induction l as [|c l IH]; intros N; cbn [split_lines]; [reflexivity|].
  destruct (Nat.eqb_spec (code c) 10) as [E|_].
  - exfalso. apply N. left. apply code_inj. exact E.
  - rewrite IH; [reflexivity|]. intros I. apply N. right. exact I.
Qed.
Lemma split_all ls last : Forall one_line (ls ++ [last]) -> split_lines (lines ls last) = ls ++ [last].
Proof.
  unfold lines. induction ls as [|l ls IH]; cbn [app flat_map]; intros F.
  - apply Forall_inv in F. apply split_last. exact F.
  - rewrite <- !app_assoc. change ([newline] ++ flat_map (fun l0 => l0 ++ [newline]) ls ++ last) with (newline :: (flat_map (fun l0 => l0 ++ [newline]) ls ++ last)).
    rewrite split_line by (apply Forall_inv in F; exact F). rewrite IH by (apply Forall_inv_tail in F; exact F). reflexivity.
Qed.

Lemma one_line_app a b : one_line a -> one_line b -> one_line (a ++ b).
Proof. apply not_in_app. Qed.
Lemma word_line i : (forall c, In c i -> word_char c = true) -> one_line i.
Proof. intros W. apply word_not; [exact W|reflexivity]. Qed.
Lemma tail_line b i t : tail b i t -> (forall x, i = Some x -> forall c, In c x -> word_char c = true) -> one_line t.
Proof.
  intros X W. destruct X as [b|b i|i]; [intros []| |]; repeat apply one_line_app; try (apply word_line, (W i eq_refl)); unfold one_line; cbn; intuition discriminate.
Qed.
Lemma written_line ind e l : indentation_ok ind -> entry_ok e -> writes ind e l -> one_line l.
Proof.
  intros (_ & _ & Oi) (_ & On & Wi) (b & B & ->).
  assert (forall x, e_id e = Some x -> forall c, In c x -> word_char c = true) as W by (intros x E; exact (proj2 (Wi x E))).
  apply one_line_app; [intros I; apply in_repeat in I; exact (Oi I)|]. apply one_line_app; [unfold one_line; cbn; intuition discriminate|].
  destruct B as [n i t _ X|n i t _ X|n i t _ X|n i t _ X|n i t s k X Hs|n i t k X]; repeat apply one_line_app;
    try exact On; try (apply (tail_line _ _ _ X W)); try (unfold one_line; cbn; intuition discriminate).
  - destruct Hs as [-> | ->]; unfold one_line; cbn; intuition discriminate.
  - destruct k; unfold one_line; cbn; intuition discriminate.
  - destruct k; unfold one_line; cbn; intuition discriminate.
Qed.
Lemma white_line l : Forall white l -> one_line l.
Proof. intros F I. rewrite Forall_forall in F. specialize (F _ I). unfold white in F. rewrite code_newline in F. cbn [In] in F. intuition discriminate. Qed.

(** ** Labels *)
Fixpoint unnamed (es : list entry) : nat :=
  match es with [] => 0 | e :: r => (match e_name e with [] => 1 | _ => 0 end) + unnamed r end.
Lemma label_length es : forall k, List.length (label k es) = List.length es.
Proof. induction es as [|e es IH]; intros k; [reflexivity|]. cbn [label]. destruct (e_name e); cbn [List.length]; rewrite IH; reflexivity. Qed.
Lemma labels_length es : List.length (labels es) = List.length es.
Proof. apply label_length. Qed.
Lemma label_app es fs : forall k, label k (es ++ fs) = label k es ++ label (k + unnamed es) fs.
Proof.
  induction es as [|e es IH]; intros k; cbn [app label unnamed]; [rewrite Nat.add_0_r; reflexivity|].
  destruct (e_name e) as [|c n]; rewrite IH; cbn [app]; do 2 f_equal; f_equal; lia.
Qed.
Definition next_label (es : list entry) (e : entry) : text :=
  match e_name e with [] => T "group_" ++ print_N (N.of_nat (S (unnamed es))) | n => n end.
Lemma labels_snoc es e : labels (es ++ [e]) = labels es ++ [next_label es e].
Proof. unfold labels, next_label. rewrite label_app. cbn [label Nat.add]. destruct (e_name e); reflexivity. Qed.
Lemma unnamed_app es fs : unnamed (es ++ fs) = unnamed es + unnamed fs.
Proof. induction es as [|e es IH]; cbn [app unnamed]; [reflexivity|]. rewrite IH. lia. Qed.
Lemma levels_snoc es e : levels (es ++ [e]) = levels es ++ [e_level e].
Proof. unfold levels. rewrite map_app. reflexivity. Qed.
Lemma levels_length es : List.length (levels es) = List.length es.
Proof. apply map_length. Qed.

(** ** Levels *)
Definition at_last (ls : list nat) (k j : nat) : Prop := nth_error ls j = Some k /\ forall j', j < j' -> nth_error ls j' <> Some k.

Lemma nth_snoc {A} (l : list A) x j : nth_error (l ++ [x]) j = if j <? List.length l then nth_error l j else if j =? List.length l then Some x else None.
Proof.
  destruct (Nat.ltb_spec j (List.length l)) as [L|L]; [apply nth_error_app1; exact L|]. rewrite nth_error_app2 by exact L.
  destruct (Nat.eqb_spec j (List.length l)) as [->|N]; [rewrite Nat.sub_diag; reflexivity|].
  destruct (j - List.length l) as [|k] eqn:E; [lia|]. destruct k; reflexivity.
Qed.
Lemma nth_below {A} (l : list A) j x : nth_error l j = Some x -> j < List.length l.
Proof. intros E. apply nth_error_Some. rewrite E. discriminate. Qed.

Lemma at_last_snoc ls x k j : at_last (ls ++ [x]) k j <-> (x = k /\ j = List.length ls) \/ (x <> k /\ at_last ls k j).
Proof.
  unfold at_last. split.
  - intros (E & M). destruct (Nat.eq_dec x k) as [->|N].
    + left. split; [reflexivity|]. rewrite nth_snoc in E. destruct (Nat.ltb_spec j (List.length ls)) as [L|L].
      * exfalso. apply (M (List.length ls) L). rewrite nth_snoc, Nat.ltb_irrefl, Nat.eqb_refl. reflexivity.
      * destruct (Nat.eqb_spec j (List.length ls)); [assumption|discriminate].
    + right. split; [exact N|]. rewrite nth_snoc in E. destruct (Nat.ltb_spec j (List.length ls)) as [L|L].
      * split; [exact E|]. intros j' Lj Ej. apply (M j' Lj). rewrite nth_snoc. pose proof (nth_below _ _ _ Ej). destruct (Nat.ltb_spec j' (List.length ls)); [exact Ej|lia].
      * destruct (Nat.eqb_spec j (List.length ls)); [congruence|discriminate].
  - intros [(-> & ->)|(N & E & M)].
    + rewrite nth_snoc, Nat.ltb_irrefl, Nat.eqb_refl. split; [reflexivity|]. intros j' L. rewrite nth_snoc.
      destruct (Nat.ltb_spec j' (List.length ls)); [lia|]. destruct (Nat.eqb_spec j' (List.length ls)); [lia|discriminate].
    + pose proof (nth_below _ _ _ E) as L. split; [rewrite nth_snoc; destruct (Nat.ltb_spec j (List.length ls)); [exact E|lia]|].
      intros j' L'. rewrite nth_snoc. destruct (Nat.ltb_spec j' (List.length ls)); [apply M; exact L'|]. destruct (Nat.eqb_spec j' (List.length ls)); congruence.
Qed.

Lemma last_cons {A} (l : list A) : forall a d, last (a :: l) d = last l a.
Proof.
  induction l as [|b l IH]; intros a d; [reflexivity|]. change (last (a :: b :: l) d) with (last (b :: l) d). rewrite (IH b d), (IH b a). reflexivity.
Qed.
Lemma indented_app r root l x : indented root l (r ++ [x]) <-> indented root l r /\ root < x <= S (last r l).
Proof.
  revert l. induction r as [|y r IH]; intros l; cbn [app indented]; [cbn [last]; tauto|]. rewrite IH, last_cons. tauto.
Qed.
(** The first line is [l]; every level between it and the last line has been seen. *)
Lemma level_seen l r k : indented l l r -> l <= k <= last r l -> exists j, at_last (l :: r) k j.
Proof.
  revert k. induction r as [|x r IH] using rev_ind; intros k I Lk.
  - cbn [last] in Lk. assert (k = l) as -> by lia. exists 0. split; [reflexivity|]. intros [|j'] L; [lia|]. destruct j'; discriminate.
  - apply indented_app in I. destruct I as (I & Lx). rewrite last_last in Lk. rewrite app_comm_cons. destruct (Nat.eq_dec x k) as [->|N].
    + eexists. apply at_last_snoc. left. split; reflexivity.
    + destruct (IH k I ltac:(lia)) as (j & A). exists j. apply at_last_snoc. right. split; assumption.
Qed.

Lemma closest_app ls ks i j : i < List.length ls -> (closest (ls ++ ks) i j <-> closest ls i j).
Proof.
  intros L. unfold closest. split; intros (l & E1 & E2 & Lj & M); exists l.
  - rewrite nth_error_app1 in E1 by exact L. rewrite nth_error_app1 in E2 by lia. split; [exact E1|]. split; [exact E2|]. split; [exact Lj|].
    intros k Lk. rewrite <- (nth_error_app1 ls ks) by lia. apply M. exact Lk.
  - rewrite nth_error_app1 by exact L. rewrite nth_error_app1 by lia. split; [exact E1|]. split; [exact E2|]. split; [exact Lj|].
    intros k Lk. rewrite nth_error_app1 by lia. apply M. exact Lk.
Qed.
Lemma closest_new ls l j : at_last ls l j -> closest (ls ++ [S l]) (List.length ls) j.
Proof.
  intros (E & M). pose proof (nth_below _ _ _ E) as L. exists l. rewrite nth_snoc, Nat.ltb_irrefl, Nat.eqb_refl. split; [reflexivity|].
  split; [rewrite nth_error_app1 by exact L; exact E|]. split; [exact L|]. intros k Lk. rewrite nth_error_app1 by lia. apply M. lia.
Qed.

(** ** Maps *)
Section Maps.
Context {K V : Type} (eqb : K -> K -> bool) (eqb_ok : forall a b, eqb a b = true <-> a = b).
Lemma put_lookup k v l k' : lookup (V := V) eqb k' (put eqb k v l) = if eqb k' k then Some v else lookup eqb k' l.
Proof.
  induction l as [|(a, b) l IH]; cbn [put lookup]; [reflexivity|]. destruct (eqb k a) eqn:E; cbn [lookup].
  - apply eqb_ok in E. subst a. destruct (eqb k' k); reflexivity.
  - destruct (eqb k' a) eqn:E'.
    + destruct (eqb k' k) eqn:E''; [|reflexivity]. apply eqb_ok in E', E''. subst. exfalso. assert (eqb a a = true) by (apply eqb_ok; reflexivity). congruence.
    + exact IH.
Qed.
Lemma erase_lookup (l : list (K * V)) k : lookup eqb k (erase eqb k l) = None.
Proof.
  induction l as [|(a, b) l IH]; [reflexivity|]. cbn [erase filter fst]. destruct (eqb k a) eqn:E; cbn [negb]; [exact IH|]. cbn [lookup]. rewrite E. exact IH.
Qed.
Lemma lookup_none (l : list (K * V)) k : lookup eqb k l = None -> erase eqb k l = l.
Proof.
  induction l as [|(a, b) l IH]; cbn [lookup erase filter fst]; [reflexivity|]. destruct (eqb k a) eqn:E; [discriminate|]. cbn [negb]. intros N. f_equal. apply IH. exact N.
Qed.
Lemma put_new (l : list (K * V)) k v : lookup eqb k l = None -> put eqb k v l = l ++ [(k, v)].
Proof.
  induction l as [|(a, b) l IH]; cbn [lookup put app]; [reflexivity|]. destruct (eqb k a) eqn:E; [discriminate|]. intros N. f_equal. apply IH. exact N.
Qed.
Lemma lookup_in (l : list (K * V)) k v : lookup eqb k l = Some v -> In (k, v) l.
Proof.
  induction l as [|(a, b) l IH]; cbn [lookup]; [discriminate|]. destruct (eqb k a) eqn:E; intros X.
  - apply eqb_ok in E. injection X as ->. subst a. left. reflexivity.
  - right. apply IH. exact X.
Qed.
(** Taking out the entry of a key. *)
Lemma erase_perm (l : list (K * V)) k v : NoDup (map fst l) -> lookup eqb k l = Some v -> Permutation l ((k, v) :: erase eqb k l).
Proof.
  induction l as [|(a, b) l IH]; cbn [lookup map fst erase filter]; intros D E; [discriminate|]. apply NoDup_cons_iff in D. destruct D as (N & D).
  destruct (eqb k a) eqn:X; cbn [negb].
  - apply eqb_ok in X. injection E as ->. subst a. apply perm_skip.
    assert (lookup eqb k l = None) as Ln.
    { destruct (lookup eqb k l) as [w|] eqn:Y; [|reflexivity]. exfalso. apply N. apply lookup_in in Y. exact (in_map fst _ _ Y). }
    apply lookup_none in Ln. unfold erase in Ln. rewrite Ln. apply Permutation_refl.
  - etransitivity; [apply perm_skip, (IH D E)|]. apply perm_swap.
Qed.
Lemma erase_keys (l : list (K * V)) k : NoDup (map fst l) -> NoDup (map fst (erase eqb k l)).
Proof.
  induction l as [|(a, b) l IH]; cbn [map fst erase filter]; intros D; [constructor|]. apply NoDup_cons_iff in D. destruct D as (N & D).
  destruct (eqb k a); cbn [negb]; [exact (IH D)|]. cbn [map fst]. constructor; [|exact (IH D)].
  intros I. apply N. apply in_map_iff in I. destruct I as (x & <- & I). apply filter_In in I. apply in_map. tauto.
Qed.
End Maps.

(** ** Searching *)
Lemma find_text_some p t : forall i, find_text p t = Some i -> t = firstn i t ++ p ++ skipn (i + List.length p) t.
Proof.
  induction t as [|c t IH]; intros i; cbn [find_text].
  - destruct (starts_with p []) eqn:E; [|discriminate]. intros X. injection X as <-. apply starts_with_spec in E. destruct E as (r & E).
    symmetry in E. apply app_eq_nil in E. destruct E as (-> & ->). reflexivity.
  - destruct (starts_with p (c :: t)) eqn:E.
    + intros X. injection X as <-. apply starts_with_spec in E. destruct E as (r & ->). cbn [firstn app Nat.add]. rewrite skipn_app_exact. reflexivity.
    + destruct (find_text p t) as [k|] eqn:F; [|discriminate]. intros X. injection X as <-. cbn [firstn app Nat.add skipn]. f_equal. apply IH. reflexivity.
Qed.
Lemma find_text_none p t : find_text p t = None <-> ~ occurs p t.
Proof.
  induction t as [|c t IH]; cbn [find_text].
  - destruct (starts_with p []) eqn:E.
    + split; [discriminate|]. intros N. exfalso. apply N. apply starts_with_spec in E. destruct E as (r & E). exists [], r. exact E.
    + split; [|reflexivity]. intros _ (a & b & X). symmetry in X. apply app_eq_nil in X. destruct X as (-> & X). apply app_eq_nil in X. destruct X as (-> & ->). discriminate E.
  - destruct (starts_with p (c :: t)) eqn:E.
    + split; [discriminate|]. intros N. exfalso. apply N. apply starts_with_spec in E. destruct E as (r & E). exists [], r. exact E.
    + destruct (find_text p t) as [k|] eqn:F.
      * split; [discriminate|]. intros N. exfalso. assert (occurs p t) as (a & b & X).
        { exists (firstn k t), (skipn (k + List.length p) t). apply find_text_some. exact F. }
        apply N. exists (c :: a), b. rewrite X. reflexivity.
      * split; [|reflexivity]. intros _ (a & b & X). destruct a as [|x a].
        -- assert (starts_with p (c :: t) = true) by (apply starts_with_spec; exists b; exact X). congruence.
        -- injection X as -> X. apply (proj1 IH eq_refl). exists a, b. exact X.
Qed.

Lemma contains_text_spec p t : contains_text p t = true <-> occurs p t.
Proof.
  unfold contains_text. destruct (find_text p t) as [k|] eqn:F.
  - split; [|reflexivity]. intros _. exists (firstn k t), (skipn (k + List.length p) t). apply find_text_some. exact F.
  - split; [discriminate|]. intros O. apply find_text_none in F. contradiction.
Qed.

(** ** One entry *)
Lemma nat_eqb_ok a b : Nat.eqb a b = true <-> a = b.
Proof. apply Nat.eqb_eq. Qed.

Lemma declarations_snoc es ns e n : List.length es = List.length ns -> declarations (es ++ [e]) (ns ++ [n]) = declarations es ns ++ [declaration e n].
Proof. revert ns. induction es as [|x es IH]; intros [|y ns] L; try discriminate; [reflexivity|]. cbn [app declarations]. f_equal. apply IH. injection L as L. exact L. Qed.
Lemma groups_snoc es ns e n : List.length es = List.length ns ->
  group_lines (es ++ [e]) (ns ++ [n]) = group_lines es ns ++ match e_mark e with Group k => [(n, k)] | _ => [] end.
Proof.
  revert ns. induction es as [|x es IH]; intros [|y ns] L; try discriminate.
  - cbn. destruct (e_mark e); reflexivity.
  - cbn [app group_lines]. injection L as L. rewrite (IH ns L). destruct (e_mark x); reflexivity.
Qed.

Record reading (es : list entry) (s : state) : Prop := Reading {
  r_last : s_last s = nth_error (levels es) (List.length es - 1);
  r_root : es <> [] -> nth_error (levels es) 0 = Some (s_root s);
  r_count : s_count s = unnamed es;
  r_parents : forall k n, lookup Nat.eqb k (s_parents s) = Some n <-> exists j, at_last (levels es) k j /\ nth_error (labels es) j = Some n;
  r_keys : NoDup (map fst (s_groups s));
  r_groups : Permutation (requests (s_calls s) ++ map snd (s_groups s)) (group_lines es (labels es));
  r_declared : declaring (s_calls s) = declarations es (labels es);
  r_edges : Forall2 (fun i e => exists j, closest (levels es) i j /\ nth_error (labels es) j = Some (fst e) /\ nth_error (labels es) i = Some (snd e))
    (seq 1 (List.length es - 1)) (edges (s_calls s));
  r_rest : forall c, In c (s_calls s) -> match c with BFeature _ | BRoot _ | BEdge _ _ | BRelationship _ _ => True | _ => False end;
  r_ids : forall i n, lookup text_eqb i (s_ids s) = Some n <-> stands_for es i n
}.

Lemma stands_nil i n : ~ stands_for [] i n.
Proof. intros H. inversion H as [es e j E X|es e j n' N H' X]; destruct es; discriminate X. Qed.
Lemma stands_snoc es e i n : stands_for (es ++ [e]) i n <-> (e_id e = Some i /\ n = e_name e) \/ (e_id e <> Some i /\ stands_for es i n).
Proof.
  split.
  - intros H. inversion H as [es' e' j E X|es' e' j n' N H' X]; apply app_inj_tail in X; destruct X as (-> & ->); [left; split; [exact E|reflexivity]|right; split; assumption].
  - intros [(E & ->)|(N & H)]; [apply stands_last; exact E|apply stands_before; assumption].
Qed.

Lemma reading_start : reading [] state_start.
Proof.
  constructor; try reflexivity; try (constructor; fail); cbn [state_start s_parents s_calls s_ids lookup levels labels label map].
  - congruence.
  - intros k n. split; [discriminate|]. intros (j & (E & _) & _). destruct j; discriminate E.
  - intros c [].
  - intros i n. split; [discriminate|]. intros H. destruct (stands_nil _ _ H).
Qed.

Definition ids_after (e : entry) (m : list (text * text)) : list (text * text) :=
  match e_id e with Some i => put text_eqb i (e_name e) m | None => m end.
Lemma store_ok e m : id_apart e -> store_ids (e_name e) (id_list (e_id e)) m = Some (ids_after e m).
Proof.
  intros A. unfold ids_after, id_apart in *. destruct (e_id e) as [i|]; [|reflexivity]. cbn [id_list store_ids].
  destruct (negb (text_eqb i (e_name e)) && contains_text i (e_name e)) eqn:X; [|reflexivity]. exfalso.
  apply andb_prop in X. destruct X as (X & Y). apply negb_true_iff, text_eqb_neq in X. apply contains_text_spec in Y. destruct (A i eq_refl); contradiction.
Qed.
Lemma store_bad e m : ~ id_apart e -> store_ids (e_name e) (id_list (e_id e)) m = None.
Proof.
  intros A. unfold id_apart in A. destruct (e_id e) as [i|]; [|exfalso; apply A; intros i E; discriminate E]. cbn [id_list store_ids].
  destruct (negb (text_eqb i (e_name e)) && contains_text i (e_name e)) eqn:X; [reflexivity|]. exfalso. apply A. intros j E. injection E as <-.
  apply andb_false_iff in X. destruct X as [X|X].
  - left. apply negb_false_iff, text_eqb_eq in X. exact X.
  - right. intros O. apply contains_text_spec in O. congruence.
Qed.

(** A line read after the entries [es], all at once. *)
Definition made (e : entry) (n : text) : bcall :=
  match type_of (e_mark e) with
  | LRoot => BRoot n
  | LOptional => BFeature (new_feature FBinary n true [] [])
  | _ => BFeature (new_feature FBinary n false [] [])
  end.
Lemma made_declaration e n : made e n = declaration e n.
Proof. unfold made, declaration. destruct (e_mark e); reflexivity. Qed.

Section Step.
Variables (ind : text) (es : list entry) (s : state) (e : entry) (l : text).
Hypothesis Io : indentation_ok ind.
Hypothesis R : reading es s.
Hypothesis Eo : entry_ok e.
Hypothesis W : writes ind e l.
Let name := next_label es e.
Let parents := put Nat.eqb (e_level e) name (s_parents s).
Let groups' :=
  let gs := erase Nat.eqb (e_level e) (s_groups s) in
  match e_mark e with Group k => put Nat.eqb (e_level e) (name, k) gs | _ => gs end.
Let finish (root : nat) (edge : list bcall) : sx state :=
  SxDone (State (Some (e_level e)) root (unnamed (es ++ [e])) parents groups' (ids_after e (s_ids s))
    (s_calls s ++ declaration e name :: edge ++ end_group (e_level e) (s_groups s))).

Lemma read_written : read_line ind s l =
  match s_last s with
  | None => if negb (match e_id e with Some i => text_eqb i (e_name e) || negb (contains_text i (e_name e)) | None => true end) then SxRefused else finish (e_level e) []
  | Some k =>
      if k + 1 <? e_level e then SxRefused
      else if negb (match e_id e with Some i => text_eqb i (e_name e) || negb (contains_text i (e_name e)) | None => true end) then SxRefused
      else if e_level e =? s_root s then SxRefused
      else match e_level e with
           | 0 => SxUndefined
           | S p => match lookup Nat.eqb p parents with None => SxUndefined | Some q => finish (s_root s) [BEdge q name] end
           end
  end.
Proof.
  destruct (written_visible ind e l W) as (Bl & Co). unfold read_line. rewrite Bl, Co. cbn [negb].
  assert (level_of ind l = e_level e) as ->. { destruct W as (b & _ & ->). apply level_written. exact Io. }
  rewrite (parse_written ind e l Io Eo W). cbn [sx_bind l_name l_ids l_type].
  assert (store_ids (e_name e) (id_list (e_id e)) (s_ids s) =
    if negb (match e_id e with Some i => text_eqb i (e_name e) || negb (contains_text i (e_name e)) | None => true end) then None else Some (ids_after e (s_ids s))) as ->.
  { unfold ids_after. destruct (e_id e) as [i|]; [|reflexivity]. cbn [id_list store_ids].
    destruct (text_eqb i (e_name e)), (contains_text i (e_name e)); reflexivity. }
  destruct (negb (match e_id e with Some i => text_eqb i (e_name e) || negb (contains_text i (e_name e)) | None => true end)) eqn:Z.
  { destruct (s_last s) as [k|]; [destruct (k + 1 <? e_level e); reflexivity|reflexivity]. }
  assert ((match e_name e with [] => (S (s_count s), T "group_" ++ print_N (N.of_nat (S (s_count s)))) | a :: l0 => (s_count s, a :: l0) end)
    = (unnamed (es ++ [e]), name)) as Q.
  { unfold name, next_label. rewrite unnamed_app, (r_count _ _ R). cbn [unnamed]. destruct (e_name e); f_equal; lia. }
  rewrite Q; clear Q; fold parents.
  destruct (s_last s) as [k|]; [destruct (k + 1 <? e_level e); [reflexivity|]; destruct (e_level e =? s_root s); [reflexivity|]|];
    unfold finish, groups', made, declaration; cbv zeta.
  all: try (destruct (e_mark e); reflexivity).
  all: destruct (e_level e) as [|p]; [reflexivity|]; unfold parents; destruct (lookup Nat.eqb p (put Nat.eqb (S p) name (s_parents s))); [|reflexivity]; destruct (e_mark e); reflexivity.
Qed.

Lemma apart_check : id_apart e <-> match e_id e with Some i => text_eqb i (e_name e) || negb (contains_text i (e_name e)) | None => true end = true.
Proof.
  unfold id_apart. destruct (e_id e) as [i|]; [|split; [reflexivity|intros _ i E; discriminate E]]. split.
  - intros A. destruct (A i eq_refl) as [X|X].
    + apply text_eqb_eq in X. rewrite X. reflexivity.
    + destruct (contains_text i (e_name e)) eqn:C; [apply contains_text_spec in C; contradiction|apply orb_true_r].
  - intros X j E. injection E as <-. apply orb_prop in X. destruct X as [X|X]; [left; apply text_eqb_eq; exact X|]. right. intros O. apply contains_text_spec in O. rewrite O in X. discriminate X.
Qed.

Lemma NoDup_snoc_l {A} (xs : list A) x : NoDup xs -> ~ In x xs -> NoDup (xs ++ [x]).
Proof. intros N H. apply Permutation_NoDup with (x :: xs); [apply Permutation_cons_append|constructor; assumption]. Qed.
Lemma requests_app a b : requests (a ++ b) = requests a ++ requests b.
Proof. apply flat_map_app. Qed.
Lemma declaring_app a b : declaring (a ++ b) = declaring a ++ declaring b.
Proof. apply flat_map_app. Qed.
Lemma edges_app a b : edges (a ++ b) = edges a ++ edges b.
Proof. apply flat_map_app. Qed.
Lemma end_group_facts lv gs : declaring (end_group lv gs) = [] /\ edges (end_group lv gs) = [] /\
  requests (end_group lv gs) = match lookup Nat.eqb lv gs with Some g => [g] | None => [] end.
Proof. unfold end_group. destruct (lookup Nat.eqb lv gs) as [(n, k)|]; repeat split. Qed.

(** What follows from the entry being placed. *)
Lemma step_reading root edge :
  (es <> [] -> root = s_root s) -> (es = [] -> root = e_level e /\ edge = []) ->
  (es <> [] -> exists k q, e_level e = S k /\ edge = [BEdge q name] /\ exists j, at_last (levels es) k j /\ nth_error (labels es) j = Some q) ->
  exists s', finish root edge = SxDone s' /\ reading (es ++ [e]) s'.
Proof.
  intros Hr H0 H1. eexists. split; [reflexivity|].
  assert (es = [] \/ es <> []) as Ee by (clear; destruct es; [left; reflexivity|right; discriminate]).
  assert (List.length (labels es) = List.length es) as Ll by apply labels_length.
  assert (List.length (levels es) = List.length es) as Lv by apply levels_length.
  destruct (end_group_facts (e_level e) (s_groups s)) as (G1 & G2 & G3).
  assert (declaring edge = [] /\ requests edge = []) as (D1 & D2).
  { destruct Ee as [Ee|Ee]; [destruct (H0 Ee) as (_ & ->); split; reflexivity|]. destruct (H1 Ee) as (k & q & _ & -> & _). split; reflexivity. }
  assert (declaring [declaration e name] = [declaration e name] /\ edges [declaration e name] = [] /\ requests [declaration e name] = []) as (D3 & D4 & D5)
    by (unfold declaration; destruct (e_mark e); repeat split).
  assert (s_calls s ++ declaration e name :: edge ++ end_group (e_level e) (s_groups s) = s_calls s ++ [declaration e name] ++ edge ++ end_group (e_level e) (s_groups s)) as Ec by reflexivity.
  constructor; cbn [s_last s_root s_count s_parents s_groups s_ids s_calls]; rewrite ?Ec, ?labels_snoc, ?levels_snoc; fold name.
  - rewrite app_length. cbn [List.length]. rewrite nth_snoc, Lv. replace (List.length es + 1 - 1) with (List.length es) by lia. rewrite Nat.ltb_irrefl, Nat.eqb_refl. reflexivity.
  - intros _. destruct Ee as [Ee|Ee].
    + destruct (H0 Ee) as (-> & _). rewrite Ee. reflexivity.
    + rewrite (Hr Ee). rewrite nth_error_app1; [exact (r_root _ _ R Ee)|]. rewrite Lv. destruct es; [congruence|cbn; lia].
  - reflexivity.
  - intros k n. unfold parents. rewrite (put_lookup Nat.eqb nat_eqb_ok). destruct (Nat.eqb_spec k (e_level e)) as [->|Nk].
    + split.
      * intros X. injection X as <-. exists (List.length es). split; [apply at_last_snoc; left; split; [reflexivity|symmetry; exact Lv]|].
        rewrite nth_snoc, Ll, Nat.ltb_irrefl, Nat.eqb_refl. reflexivity.
      * intros (j & A & E). apply at_last_snoc in A. destruct A as [(_ & ->)|(N & _)]; [|congruence]. rewrite Lv, nth_snoc, Ll, Nat.ltb_irrefl, Nat.eqb_refl in E. exact E.
    + rewrite (r_parents _ _ R). split.
      * intros (j & A & E). exists j. split; [apply at_last_snoc; right; split; [congruence|exact A]|]. rewrite nth_error_app1; [exact E|]. apply nth_below in E. exact E.
      * intros (j & A & E). apply at_last_snoc in A. destruct A as [(X & _)|(_ & A)]; [congruence|]. exists j. split; [exact A|].
        rewrite nth_error_app1 in E; [exact E|]. destruct A as (A & _). apply nth_below in A. lia.
  - unfold groups'. cbv zeta. pose proof (erase_keys Nat.eqb (s_groups s) (e_level e) (r_keys _ _ R)) as K. destruct (e_mark e); try exact K.
    rewrite (put_new Nat.eqb); [|apply erase_lookup]. rewrite map_app. cbn [map fst]. apply NoDup_snoc_l; [exact K|].
    intros I. apply in_map_iff in I. destruct I as ((a, b) & E & I). cbn [fst] in E. subst a. apply filter_In in I. destruct I as (_ & I). cbn [fst] in I. rewrite Nat.eqb_refl in I. discriminate I.
  - rewrite groups_snoc by (symmetry; exact Ll). rewrite !requests_app, D5, D2, G3. cbn [app].
    eapply Permutation_trans; [|apply Permutation_app_tail, (r_groups _ _ R)]. rewrite <- !app_assoc. apply Permutation_app_head.
    assert (Permutation (match lookup Nat.eqb (e_level e) (s_groups s) with Some g => [g] | None => [] end ++ map snd (erase Nat.eqb (e_level e) (s_groups s))) (map snd (s_groups s))) as P.
    { destruct (lookup Nat.eqb (e_level e) (s_groups s)) as [g|] eqn:Lg.
      - apply Permutation_sym. exact (Permutation_map snd (erase_perm Nat.eqb nat_eqb_ok (s_groups s) (e_level e) g (r_keys _ _ R) Lg)).
      - rewrite (lookup_none Nat.eqb _ _ Lg). apply Permutation_refl. }
    unfold groups'. cbv zeta. destruct (e_mark e); rewrite ?app_nil_r; try exact P.
    rewrite (put_new Nat.eqb); [|apply erase_lookup]. rewrite map_app. cbn [map snd]. rewrite app_assoc. apply Permutation_app_tail. exact P.
  - rewrite declarations_snoc by (symmetry; exact Ll). rewrite !declaring_app, D3, D1, G1, (r_declared _ _ R). reflexivity.
  - rewrite !edges_app, D4, G2, app_nil_r. cbn [app]. rewrite app_length. cbn [List.length].
    assert (Forall2 (fun i e0 => exists j, closest (levels es ++ [e_level e]) i j /\ nth_error (labels es ++ [name]) j = Some (fst e0) /\ nth_error (labels es ++ [name]) i = Some (snd e0))
      (seq 1 (List.length es - 1)) (edges (s_calls s))) as F.
    { pose proof (r_edges _ _ R) as F. assert (forall i, In i (seq 1 (List.length es - 1)) -> i < List.length es) as B by (intros i I; apply in_seq in I; lia).
      revert B F. generalize (seq 1 (List.length es - 1)) as is. intros is B F. induction F as [|i x is xs (j & C & Ej & Ei) F IH]; [constructor|].
      constructor; [|apply IH; intros y Y; apply B; right; exact Y].
      assert (i < List.length es) as Li by (apply B; left; reflexivity). exists j. split; [apply closest_app; [lia|exact C]|].
      rewrite !nth_error_app1 by (rewrite ?Ll; destruct C as (? & _ & _ & ? & _); lia). split; assumption. }
    destruct Ee as [Ee|Ee].
    + destruct (H0 Ee) as (_ & ->). cbn [edges flat_map]. rewrite app_nil_r. rewrite Ee in F |- *. exact F.
    + destruct (H1 Ee) as (k & q & Ek & -> & j & A & Ej). cbn [edges flat_map app].
      assert (0 < List.length es) as Lp by (destruct es; [congruence|cbn; lia]).
      replace (List.length es + 1 - 1) with ((List.length es - 1) + 1) by lia. rewrite seq_app. apply Forall2_app; [exact F|].
      replace (1 + (List.length es - 1)) with (List.length (levels es)) by lia. cbn [seq]. constructor; [|constructor].
      exists j. split; [rewrite Ek; apply closest_new; exact A|]. cbn [fst snd]. split; [rewrite nth_error_app1; [exact Ej|apply nth_below in Ej; exact Ej]|].
      rewrite nth_snoc, Ll, Lv, Nat.ltb_irrefl, Nat.eqb_refl. reflexivity.
  - intros c I. apply in_app_or in I. destruct I as [I|I]; [exact (r_rest _ _ R c I)|]. apply in_app_or in I. destruct I as [I|I].
    + destruct I as [<-|[]]. unfold declaration. destruct (e_mark e); exact Logic.I.
    + apply in_app_or in I. destruct I as [I|I].
      * destruct Ee as [Ee|Ee]; [destruct (H0 Ee) as (_ & ->); destruct I|]. destruct (H1 Ee) as (k & q & _ & -> & _). destruct I as [<-|[]]. exact Logic.I.
      * unfold end_group in I. destruct (lookup Nat.eqb (e_level e) (s_groups s)) as [(a, b)|]; [destruct I as [<-|[]]; exact Logic.I|destruct I].
  - intros i n. rewrite stands_snoc. unfold ids_after. destruct (e_id e) as [x|] eqn:Ei.
    + rewrite (put_lookup text_eqb text_eqb_eq). destruct (text_eqb i x) eqn:X.
      * apply text_eqb_eq in X. subst x. split; [intros Y; injection Y as <-; left; split; reflexivity|]. intros [(_ & ->)|(N & _)]; [reflexivity|congruence].
      * apply text_eqb_neq in X. rewrite (r_ids _ _ R). split; [intros H; right; split; [congruence|exact H]|]. intros [(Y & _)|(_ & H)]; [congruence|exact H].
    + rewrite (r_ids _ _ R). split; [intros H; right; split; [discriminate|exact H]|]. intros [(Y & _)|(_ & H)]; [discriminate|exact H].
Qed.
End Step.
