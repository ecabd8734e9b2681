(** Examples for the SXFM reader. *)
From Coq Require Import List ZArith NArith Arith Bool Ascii String Permutation Lia.
From Verif Require Import Text TextProofs LlvmInt ConstraintModel ConstraintSpec ConstraintParserModel ConstraintTokenSpec ConstraintParserProofs ConstraintRoundTrip
  SourceRangeModel FeatureTreeModel FeatureTreeSpec FeatureTransactionModel FeatureEditSpec FeatureTransactionExamples FeatureBuildSpec FeatureBuildExamples
  SxfmModel SxfmSpec SxfmLineProofs SxfmTreeProofs SxfmFormulaSpec SxfmFormulaProofs.
Import ListNotations.
Local Open Scope string_scope.
Local Open Scope list_scope.
Local Open Scope nat_scope.

Definition tab : text := [ascii_of_nat 9].
Definition nl : text := [newline].
Definition no_sci (t : text) : option text := None.

Definition entries1 : list entry :=
  [Entry 1 Root (T "Car") None; Entry 2 Mandatory (T "Engine") (Some (T "e1")); Entry 2 Optional (T "Radio") (Some (T "ra"));
   Entry 3 (Group RAlternative) [] None; Entry 4 Member (T "AM") (Some (T "a1")); Entry 4 Member (T "FM") (Some (T "f1"));
   Entry 2 (Group ROr) (T "Colour") (Some (T "c")); Entry 3 Member (T "Red") (Some (T "r1"))].
Definition rows1 : list text :=
  [[]; tab ++ T ":r Car"; tab ++ tab ++ T ":m Engine(e1)"; T " "; tab ++ tab ++ T ":o Radio (ra)"; tab ++ tab ++ tab ++ T ":g [1,1] ";
   tab ++ tab ++ tab ++ tab ++ T ": AM (a1)"; tab ++ tab ++ tab ++ tab ++ T ": FM(f1)"; tab ++ tab ++ T ":g Colour(c) [1,*]";
   tab ++ tab ++ tab ++ T ": Red(r1)"].
Definition text1 : text := lines rows1 (T "  ").

Lemma indentation1 : indentation_ok tab.
Proof. repeat split; [discriminate| |]; [intros c [<-|[]] H; cbn in H; intuition discriminate|intros [H|[]]; discriminate]. Qed.
Ltac is_entry b := apply pages_entry; [exists (T b); split; [|reflexivity]|].
Lemma pages1 : pages tab (rows1 ++ [T "  "]) entries1.
Proof.
  unfold rows1, entries1. cbn [app].
  apply pages_blank; [constructor|].
  is_entry "r Car". { apply (body_root (T "Car") None []); [discriminate|constructor]. }
  is_entry "m Engine(e1)". { apply (body_mandatory (T "Engine") _ (T "(" ++ T "e1" ++ T ")")); [discriminate|constructor]. }
  apply pages_blank; [repeat constructor|].
  is_entry "o Radio (ra)". { apply (body_optional (T "Radio") _ (T " (" ++ T "ra" ++ T ")")); [discriminate|constructor]. }
  is_entry "g [1,1] ". { apply (body_group_before [] None [] RAlternative). constructor. }
  is_entry " AM (a1)". { apply (body_member (T "AM") _ (T " (" ++ T "a1" ++ T ")")); [discriminate|constructor]. }
  is_entry " FM(f1)". { apply (body_member (T "FM") _ (T "(" ++ T "f1" ++ T ")")); [discriminate|constructor]. }
  is_entry "g Colour(c) [1,*]". { apply (body_group (T "Colour") _ (T "(" ++ T "c" ++ T ")") (T " ") ROr); [constructor|right; reflexivity]. }
  is_entry " Red(r1)". { apply (body_member (T "Red") _ (T "(" ++ T "r1" ++ T ")")); [discriminate|constructor]. }
  apply pages_blank; [|constructor]. repeat constructor.
Qed.
Lemma text1_ok : tree_text tab entries1 text1.
Proof. exists rows1, (T "  "). split; [reflexivity|exact pages1]. Qed.

(** Deciding the conditions on entries. *)
Lemma occurs_dec_true p t : contains_text p t = true -> occurs p t.
Proof.
  unfold contains_text. destruct (find_text p t) as [i|] eqn:E; [|discriminate]. intros _. destruct (found_in _ _ _ E) as (a & b & -> & _). exists a, b. reflexivity.
Qed.
Lemma occurs_dec_false p t : contains_text p t = false -> ~ occurs p t.
Proof. unfold contains_text. destruct (find_text p t) as [i|] eqn:E; [discriminate|]. intros _. apply find_text_none. exact E. Qed.
Definition free_b (cs : string) (t : text) : bool := forallb (fun c => negb (existsb (Ascii.eqb c) (T cs))) t.
Lemma free_b_ok cs t : free_b cs t = true -> free_of cs t.
Proof.
  unfold free_b. rewrite forallb_forall. intros H c I J. specialize (H c I). apply negb_true_iff in H. assert (existsb (Ascii.eqb c) (T cs) = true); [|congruence].
  apply existsb_exists. exists c. split; [exact J|apply Ascii.eqb_refl].
Qed.
Definition entry_b (e : entry) : bool :=
  free_b " [(" (e_name e) && negb (existsb (Ascii.eqb newline) (e_name e)) &&
  match e_id e with None => true | Some i => negb (text_eqb i []) && forallb SxfmSpec.word_char i && (text_eqb i (e_name e) || negb (contains_text i (e_name e))) end.
Lemma entry_b_ok e : entry_b e = true -> entry_ok e /\ id_apart e.
Proof.
  unfold entry_b. rewrite !andb_true_iff. intros ((A & B) & C). split; [split; [exact (free_b_ok _ _ A)|split]|].
  - intros I. apply negb_true_iff in B. assert (existsb (Ascii.eqb newline) (e_name e) = true); [|congruence]. apply existsb_exists. exists newline. split; [exact I|apply Ascii.eqb_refl].
  - intros i E. rewrite E in C. rewrite !andb_true_iff in C. destruct C as ((C & D) & _). split; [intros ->; discriminate C|]. rewrite forallb_forall in D. exact D.
  - intros i E. rewrite E in C. rewrite !andb_true_iff, orb_true_iff in C. destruct C as (_ & [C|C]); [left; apply text_eqb_eq; exact C|right; apply occurs_dec_false, negb_true_iff; exact C].
Qed.
Lemma entries_b_ok es : forallb entry_b es = true -> forall e, In e es -> entry_ok e /\ id_apart e.
Proof. rewrite forallb_forall. intros H e I. apply entry_b_ok. exact (H e I). Qed.
Fixpoint distinct_b (l : list text) : bool := match l with [] => true | x :: r => negb (existsb (text_eqb x) r) && distinct_b r end.
Lemma distinct_b_ok l : distinct_b l = true -> NoDup l.
Proof.
  induction l as [|x r IH]; cbn [distinct_b]; [constructor|]. rewrite andb_true_iff. intros (A & B). constructor; [|exact (IH B)]. intros I. apply negb_true_iff in A.
  assert (existsb (text_eqb x) r = true); [|congruence]. apply existsb_exists. exists x. split; [exact I|apply text_eqb_eq; reflexivity].
Qed.

Lemma entries1_ok : forall e, In e entries1 -> entry_ok e /\ id_apart e.
Proof. apply entries_b_ok. vm_compute. reflexivity. Qed.
Lemma tree1_ok : tree_ok entries1.
Proof.
  constructor.
  - eexists _, _. split; [reflexivity|]. split; [reflexivity|]. intros x I. repeat (destruct I as [<-|I]; [discriminate|]). destruct I.
  - apply distinct_b_ok. vm_compute. reflexivity.
  - cbn. lia.
Qed.

(** What identifiers stand for, computed. *)
Fixpoint standing (es : list entry) (i : text) : option text :=
  match es with
  | [] => None
  | e :: r => match e_id e with Some j => if text_eqb i j then Some (e_name e) else standing r i | None => standing r i end
  end.
Lemma stands_snoc es e i n : stands_for (es ++ [e]) i n <-> match e_id e with Some j => if text_eqb i j then n = e_name e else stands_for es i n | None => stands_for es i n end.
Proof.
  split.
  - intros H. remember (es ++ [e]) as l eqn:E. destruct H as [es' e' i H|es' e' i n H H'].
    + apply app_inj_tail in E. destruct E as (_ & <-). rewrite H. rewrite (proj2 (text_eqb_eq i i) eq_refl). reflexivity.
    + apply app_inj_tail in E. destruct E as (-> & <-). destruct (e_id e') as [j|]; [|exact H']. destruct (text_eqb i j) eqn:X; [|exact H'].
      apply text_eqb_eq in X. subst j. congruence.
  - destruct (e_id e) as [j|] eqn:E.
    + destruct (text_eqb i j) eqn:X.
      * apply text_eqb_eq in X. subst j. intros ->. apply stands_last. exact E.
      * apply text_eqb_neq in X. apply stands_before. congruence.
    + apply stands_before. congruence.
Qed.
Lemma standing_ok es i n : stands_for es i n <-> standing (rev es) i = Some n.
Proof.
  induction es as [|e es IH] using rev_ind.
  - split; [|discriminate]. intros H. inversion H as [es0 e0 i0 E X|es0 e0 i0 n0 E F X]; destruct es0; discriminate X.
  - rewrite stands_snoc, rev_app_distr. cbn [rev app standing]. destruct (e_id e) as [j|]; [|exact IH]. destruct (text_eqb i j); [|exact IH]. split; congruence.
Qed.
Definition id_names (es : list entry) : list (text * text) := flat_map (fun e => match e_id e with Some i => [(i, e_name e)] | None => [] end) es.
Lemma standing_in es i n : standing es i = Some n -> In (i, n) (id_names es).
Proof.
  induction es as [|e es IH]; [discriminate|]. cbn [standing id_names flat_map]. intros H. apply in_or_app. destruct (e_id e) as [j|]; [|right; exact (IH H)].
  destruct (text_eqb i j) eqn:X; [|right; exact (IH H)]. apply text_eqb_eq in X. subst j. injection H as <-. left. left. reflexivity.
Qed.
Definition untouched_b (es : list entry) (ws : list text) : bool :=
  forallb (fun p => text_eqb (fst p) (snd p) ||
    (forallb (fun w => text_eqb (fst p) w || negb (contains_text (fst p) w)) ws &&
     forallb (fun w => match standing (rev es) w with None => true | Some n => negb (contains_text (fst p) n) end) ws)) (id_names (rev es)).
(** Enough for [undisturbed]: identifiers occur in no other word and in no name. *)
Lemma untouched_b_ok es ws : untouched_b es ws = true -> undisturbed es ws.
Proof.
  unfold untouched_b. rewrite forallb_forall. intros H. constructor.
  - intros w j n I (S & Ne) O. apply standing_ok, standing_in in S. specialize (H (j, n) S). cbn [fst snd] in H. apply orb_prop in H. destruct H as [H|H]; [apply text_eqb_eq in H; contradiction|].
    apply andb_prop in H. destruct H as (H & _). rewrite forallb_forall in H. specialize (H w I). apply orb_prop in H. destruct H as [H|H]; [left; apply text_eqb_eq; exact H|].
    exfalso. apply negb_true_iff, occurs_dec_false in H. contradiction.
  - intros w n j n' I (Sw & Nw) (S & Ne) O. apply standing_ok in Sw. apply standing_ok, standing_in in S. specialize (H (j, n') S). cbn [fst snd] in H. apply orb_prop in H.
    destruct H as [H|H]; [apply text_eqb_eq in H; contradiction|]. apply andb_prop in H. destruct H as (_ & H). rewrite forallb_forall in H. specialize (H w I). rewrite Sw in H.
    exfalso. apply negb_true_iff, occurs_dec_false in H. contradiction.
Qed.

(** ** A formula over the entries *)
Definition meaning1 (w : text) : text := match standing (rev entries1) w with Some n => n | None => w end.
Definition first1 : literal := Literal true (T "a1").
Definition others1 : connected := [(true, Literal false (T "r1")); (false, Literal false (T "Engine"))].
Definition formula1 : cexpr string := CBin BOr (CUn UNeg (CFeat "AM")) (CBin BAnd (CFeat "Red") (CFeat "Engine")).
Definition constraints1 : text := lines [T "c1: ~a1 or r1 and Engine"; T " "] [].
Lemma means_computed es w : means es w (match standing (rev es) w with Some n => n | None => w end).
Proof.
  destruct (standing (rev es) w) as [n|] eqn:E; [left; apply standing_ok; exact E|]. right. split; [|reflexivity]. intros m H. apply standing_ok in H. congruence.
Qed.
Lemma legible1 : legible entries1 meaning1 first1 others1.
Proof.
  constructor.
  - intros w I. split; [|split; [apply means_computed|]].
    + destruct I as [<-|[<-|[<-|[]]]]; (split; [discriminate|]); apply forallb_forall; vm_compute; reflexivity.
    + destruct I as [<-|[<-|[<-|[]]]]; (split; [apply identifierb_ok; vm_compute; reflexivity|vm_compute; discriminate]).
  - apply untouched_b_ok. vm_compute. reflexivity.
  - intros o n (S & _). apply standing_ok in S. destruct o; vm_compute in S; discriminate S.
Qed.
Lemma spells1 : spells (formula_symbols meaning1 first1 others1) formula1.
Proof.
  change (spells ([SPre UNeg; ConstraintSpec.SName "AM"] ++ SInf BOr :: ([ConstraintSpec.SName "Red"] ++ SInf BAnd :: [ConstraintSpec.SName "Engine"])) formula1).
  apply (e_inf 9 BOr); [cbn; lia|apply e_unary, u_pre, u_name|]. apply (e_inf _ BAnd); [cbn; lia| |]; apply e_unary, u_name.
Qed.
Lemma constraints1_ok : constraints_text entries1 [formula1] constraints1.
Proof.
  exists [T "c1: ~a1 or r1 and Engine"; T " "], []. split; [reflexivity|]. apply stated_line.
  - apply (states_line entries1 (T "c1") (T " ") first1 others1 [] meaning1 formula1).
    + cbn. intuition discriminate.
    + intros I. cbn in I. intuition discriminate.
    + repeat constructor.
    + constructor.
    + exact legible1.
    + exact spells1.
  - apply stated_blank; [repeat constructor|]. apply stated_blank; constructor.
Qed.
Lemma known1 : names_known entries1 [formula1].
Proof. intros c s [<-|[]] I. cbn [formula1 leaves app In] in I. destruct I as [<-|[<-|[<-|[]]]]; vm_compute; tauto. Qed.
Definition document1 : document := Document (Some (T "cars")) None text1 (Some constraints1).

Definition outcome (o : sx (heap * option fmodel)) : option (heap * fmodel) := match o with SxDone (h, Some m) => Some (h, m) | _ => None end.
Lemma document_example :
  is_order order /\ (forall l : list (nat * (text * rkind)), Permutation (rev l) l) /\ heap_ok heap0 /\ indentation_ok tab /\
  (forall e, In e entries1 -> entry_ok e /\ id_apart e) /\ tree_ok entries1 /\ tree_text tab entries1 text1 /\ constraints_text entries1 [formula1] constraints1 /\
  names_known entries1 [formula1] /\
  (let* (h, m) := outcome (read_sxfm order no_sci (@rev _) 9 true heap0 document1) in
   let* a := get_feature m (T "AM") in let* r := get_feature m (T "Red") in let* e := get_feature m (T "Engine") in
   let* c := h_cells h a in let* q := n_parent c in let* d := h_cells h q in let* p := n_parent d in let* n := name_at h p in
   Some (n, n_data d, match map c_expr (m_boolean m) with [CBin BOr (CUn UNeg (CFeat (Ref x))) (CBin BAnd (CFeat (Ref y)) (CFeat (Ref z)))] => (x =? a) && (y =? r) && (z =? e) | _ => false end))
  = Some (T "group_1", NRelationship RAlternative, true).
Proof.
  split; [exact order_ok|]. split; [intros l; apply Permutation_sym, Permutation_rev|]. split; [exact heap0_ok|]. split; [exact indentation1|]. split; [exact entries1_ok|].
  split; [exact tree1_ok|]. split; [exact text1_ok|]. split; [exact constraints1_ok|]. split; [exact known1|]. vm_compute. reflexivity.
Qed.

(** ** Lines that stop the reader *)
Definition before1 : list text := [T ":r Car"; tab ++ T ":m Engine(e1)"].
Definition start1 : entry := Entry 0 Root (T "Car") None.
Definition next1 : list entry := [Entry 1 Mandatory (T "Engine") (Some (T "e1"))].
Lemma before1_ok : pages tab before1 (start1 :: next1).
Proof.
  unfold before1, start1, next1.
  is_entry "r Car". { apply (body_root (T "Car") None []); [discriminate|constructor]. }
  is_entry "m Engine(e1)". { apply (body_mandatory (T "Engine") _ (T "(" ++ T "e1" ++ T ")")); [discriminate|constructor]. }
  constructor.
Qed.
Lemma start1_ok : (forall x, In x (start1 :: next1) -> entry_ok x /\ id_apart x) /\ well_indented (levels (start1 :: next1)).
Proof. split; [apply entries_b_ok; vm_compute; reflexivity|cbn; lia]. Qed.
Lemma stop_examples :
  indentation_ok tab /\ pages tab before1 (start1 :: next1) /\ (forall x, In x (start1 :: next1) -> entry_ok x /\ id_apart x) /\ well_indented (levels (start1 :: next1)) /\
  (exists e l, entry_ok e /\ writes tab e l /\ S (List.last (levels next1) (e_level start1)) < e_level e /\
     read_tree (fun l => l) tab (lines (before1 ++ l :: []) []) = SxRefused) /\
  (exists e l, entry_ok e /\ writes tab e l /\ ~ id_apart e /\ read_tree (fun l => l) tab (lines (before1 ++ l :: []) []) = SxRefused).
Proof.
  split; [exact indentation1|]. split; [exact before1_ok|]. split; [exact (proj1 start1_ok)|]. split; [exact (proj2 start1_ok)|]. split.
  - exists (Entry 3 Optional (T "x") None), (tab ++ tab ++ tab ++ T ":o x"). split; [apply entry_b_ok; reflexivity|]. split; [|split; [cbn; lia|vm_compute; reflexivity]].
    exists (T "o x"). split; [|reflexivity]. apply (body_optional (T "x") None []); [discriminate|constructor].
  - exists (Entry 1 Optional (T "xy") (Some (T "x"))), (tab ++ T ":o xy(x)"). split; [|split; [|split; [|vm_compute; reflexivity]]].
    + split; [apply free_b_ok; reflexivity|]. split; [intros I; cbn in I; intuition discriminate|]. intros i E. injection E as <-. split; [discriminate|]. apply forallb_forall. reflexivity.
    + exists (T "o xy(x)"). split; [|reflexivity]. apply (body_optional (T "xy") _ (T "(" ++ T "x" ++ T ")")); [discriminate|constructor].
    + intros A. destruct (A (T "x") eq_refl) as [A'|A']; [discriminate A'|]. apply A'. exists [], (T "y"). reflexivity.
Qed.
Lemma left_example : exists first e before l,
  indentation_ok tab /\ pages tab before [first] /\ (entry_ok first /\ id_apart first) /\ entry_ok e /\ id_apart e /\ writes tab e l /\ e_level e < e_level first /\
  read_tree (fun l => l) tab (lines (before ++ l :: []) []) = SxUndefined.
Proof.
  exists (Entry 1 Root (T "Car") None), (Entry 0 Optional (T "x") None), [tab ++ T ":r Car"], (T ":o x"). split; [exact indentation1|]. split.
  { is_entry "r Car". { apply (body_root (T "Car") None []); [discriminate|constructor]. } constructor. }
  split; [apply entry_b_ok; reflexivity|]. destruct (entry_b_ok (Entry 0 Optional (T "x") None) eq_refl) as (A & B). split; [exact A|]. split; [exact B|]. split; [|split; [cbn; lia|vm_compute; reflexivity]].
  exists (T "o x"). split; [|reflexivity]. apply (body_optional (T "x") None []); [discriminate|constructor].
Qed.
(** A cardinality of minus one is taken for the wildcard. *)
Lemma minus_one : read_tree (fun l => l) tab (lines [T ":r Car"; tab ++ T ":g G [1,-1]"] []) =
  read_tree (fun l => l) tab (lines [T ":r Car"; tab ++ T ":g G [1,*]"] []) /\
  (exists r, read_tree (fun l => l) tab (lines [T ":r Car"; tab ++ T ":g G [1,*]"] []) = SxDone r) /\
  read_tree (fun l => l) tab (lines [T ":r Car"; tab ++ T ":g G [1,2]"] []) = SxRefused.
Proof. split; [vm_compute; reflexivity|]. split; [eexists|]; vm_compute; reflexivity. Qed.

(** ** Identifiers *)
(** The identifier ab of the feature bbaa in the formula abb. *)
Definition entries2 : list entry := [Entry 0 Root (T "r") None; Entry 1 Optional (T "bbaa") (Some (T "ab"))].
Definition tree2 : text := lines [T ":r r"; tab ++ T ":o bbaa (ab)"] [].
Definition document2 : document := Document (Some (T "m")) None tree2 (Some (T "c: abb")).
Lemma pages2 : tree_text tab entries2 tree2.
Proof.
  exists [T ":r r"; tab ++ T ":o bbaa (ab)"], []. split; [reflexivity|]. cbn [app].
  is_entry "r r". { apply (body_root (T "r") None []); [discriminate|constructor]. }
  is_entry "o bbaa (ab)". { apply (body_optional (T "bbaa") _ (T " (" ++ T "ab" ++ T ")")); [discriminate|constructor]. }
  apply pages_blank; constructor.
Qed.
Lemma endless : exists d es, tree_text tab es (d_tree d) /\ (forall e, In e es -> entry_ok e /\ id_apart e) /\ tree_ok es /\
  forall ord sci fuel or_first h, read_sxfm ord sci (fun l => l) fuel or_first h d = SxEndless.
Proof.
  exists document2, entries2. split; [exact pages2|]. split; [apply entries_b_ok; vm_compute; reflexivity|]. split.
  { constructor; [|apply distinct_b_ok; vm_compute; reflexivity|cbn; lia]. eexists _, _. split; [reflexivity|]. split; [reflexivity|]. intros x [<-|[]]; discriminate. }
  intros ord sci fuel or_first h.
  assert (formula fuel or_first [(T "ab", T "bbaa")] (T "c: abb") = None) as E.
  { change (bind (bind (replace_all fuel (T "ab") (T "bbaa") (T "abb")) (fun t1 => Some t1)) (fun t1 => fold_left (fun o k => let* x := o in replace_all fuel (fst k) (snd k) x) (special_keys or_first) (Some t1)) = None).
    rewrite replace_endless. reflexivity. }
  unfold read_sxfm, read_calls. cbn [document2 d_name d_indentation d_tree d_constraints].
  assert (exists cs, read_tree (fun l => l) default_indentation tree2 = SxDone (cs, [(T "ab", T "bbaa")])) as (cs & ->) by (eexists; vm_compute; reflexivity).
  cbn [sx_bind snd]. unfold read_constraints. change (split_lines (T "c: abb")) with [T "c: abb"]. cbn [fold_left sx_bind]. unfold read_constraint.
  change (blank (T "c: abb")) with false. change (negb (contains_char ":" (T "c: abb"))) with false. cbv beta iota. rewrite E. reflexivity.
Qed.

(** The identifier b of the feature a, which is the identifier of the feature X. *)
Definition entries3 : list entry := [Entry 0 Root (T "r") None; Entry 1 Optional (T "X") (Some (T "a")); Entry 1 Optional (T "a") (Some (T "b"))].
Definition tree3 : text := lines [T ":r r"; tab ++ T ":o X (a)"; tab ++ T ":o a (b)"] [].
Lemma pages3 : tree_text tab entries3 tree3.
Proof.
  exists [T ":r r"; tab ++ T ":o X (a)"; tab ++ T ":o a (b)"], []. split; [reflexivity|]. cbn [app].
  is_entry "r r". { apply (body_root (T "r") None []); [discriminate|constructor]. }
  is_entry "o X (a)". { apply (body_optional (T "X") _ (T " (" ++ T "a" ++ T ")")); [discriminate|constructor]. }
  is_entry "o a (b)". { apply (body_optional (T "a") _ (T " (" ++ T "b" ++ T ")")); [discriminate|constructor]. }
  apply pages_blank; constructor.
Qed.
Lemma cascade : exists es t w n x, tree_text tab es t /\ (forall e, In e es -> entry_ok e /\ id_apart e) /\ tree_ok es /\
  stands_for es w n /\ In n (labels es) /\ x <> n /\
  match read_calls no_sci (fun l => l) 9 true (Document (Some (T "m")) None t (Some (T "c: " ++ w))) with
  | SxDone cs => constraints_of cs = [(KBoolean, CFeat (Own x))]
  | _ => False
  end.
Proof.
  exists entries3, tree3, (T "b"), (T "a"), (T "X"). split; [exact pages3|]. split; [apply entries_b_ok; vm_compute; reflexivity|]. split.
  { constructor; [|apply distinct_b_ok; vm_compute; reflexivity|cbn; lia]. eexists _, _. split; [reflexivity|]. split; [reflexivity|]. intros x [<-|[<-|[]]]; discriminate. }
  split; [apply standing_ok; reflexivity|]. split; [vm_compute; tauto|]. split; [discriminate|]. vm_compute. reflexivity.
Qed.

(** ** Formulas that cannot be read *)
Lemma bad_formulas :
  read_constraints no_sci 9 true [] (T "c:") = SxUndefined /\
  read_constraints no_sci 9 true [] (T "c: a b") = SxDone [] /\
  read_constraints no_sci 9 true [] (T "a or b") = SxRefused.
Proof. split; [|split]; vm_compute; reflexivity. Qed.
