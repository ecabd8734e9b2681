(** Properties C47 and C48: the SXFM reader. *)
From Coq Require Import List ZArith NArith Arith Bool Ascii String Permutation.
From Verif Require Import Text ConstraintModel ConstraintSpec FeatureTreeModel FeatureTreeSpec FeatureTransactionModel FeatureEditSpec FeatureTransactionExamples FeatureBuildSpec FeatureBuildExamples
  SxfmModel SxfmSpec SxfmFormulaSpec SxfmFormulaProofs SxfmTreeFinal SxfmFinal SxfmExamples SxfmLevelSpec SxfmLevelProofs.
Import ListNotations.
Local Open Scope string_scope.
Local Open Scope list_scope.
Local Open Scope nat_scope.

(** ** C47 *)
(** The calls on the builder that a well-indented tree leads to, and the identifiers. *)
Theorem C47_entries_become_calls :
  forall order, (forall l, Permutation (order l) l) -> forall ind es t,
  indentation_ok ind -> (forall e, In e es -> entry_ok e /\ id_apart e) -> well_indented (levels es) -> tree_text ind es t ->
  exists cs ids, read_tree order ind t = SxDone (cs, ids) /\ tree_calls es cs /\ forall i n, lookup text_eqb i ids = Some n <-> stands_for es i n.
Proof. exact tree_read. Qed.
Print Assumptions C47_entries_become_calls.

(** The model of a document: as indented, with the constraints of the formulas. *)
Theorem C47_documents_are_read :
  forall ord sci order or_first h d n ind es cs,
  is_order ord -> (forall l, Permutation (order l) l) -> heap_ok h -> d_name d = Some n ->
  ind = match d_indentation d with Some i => i | None => [ascii_of_nat 9] end -> indentation_ok ind ->
  (forall e, In e es -> entry_ok e /\ id_apart e) -> tree_ok es -> tree_text ind es (d_tree d) ->
  match d_constraints d with Some t => constraints_text es cs t | None => cs = [] end -> names_known es cs ->
  exists k, forall fuel, k <= fuel -> exists h' m, read_sxfm ord sci order fuel or_first h d = SxDone (h', Some m) /\ heap_ok h' /\
    m_name m = n /\ as_indented es h' m /\
    Forall2 (fun c x => c_expr x = cmap (fun s => pointing m (Own (T s))) c) cs (m_boolean m) /\ m_nonboolean m = [] /\ m_mixed m = [].
Proof. exact document_read. Qed.
Print Assumptions C47_documents_are_read.
Example C47_example :
  is_order order /\ (forall l : list (nat * (text * rkind)), Permutation (rev l) l) /\ heap_ok heap0 /\ indentation_ok tab /\
  (forall e, In e entries1 -> entry_ok e /\ id_apart e) /\ tree_ok entries1 /\ tree_text tab entries1 text1 /\ constraints_text entries1 [formula1] constraints1 /\
  names_known entries1 [formula1] /\
  (let* (h, m) := outcome (read_sxfm order no_sci (@rev _) 9 true heap0 document1) in
   let* a := get_feature m (T "AM") in let* r := get_feature m (T "Red") in let* e := get_feature m (T "Engine") in
   let* c := h_cells h a in let* q := n_parent c in let* d := h_cells h q in let* p := n_parent d in let* n := name_at h p in
   Some (n, n_data d, match map c_expr (m_boolean m) with [CBin BOr (CUn UNeg (CFeat (Ref x))) (CBin BAnd (CFeat (Ref y)) (CFeat (Ref z)))] => (x =? a) && (y =? r) && (z =? e) | _ => false end))
  = Some (T "group_1", NRelationship RAlternative, true).
Proof. exact document_example. Qed.

(** A line that is more than one level deeper than the one before, or as deep as the
    root, is rejected. *)
Theorem C47_over_indented_lines_are_rejected :
  forall order ind first es e before l after last,
  indentation_ok ind -> (forall x, In x (first :: es) -> entry_ok x /\ id_apart x) -> well_indented (levels (first :: es)) -> entry_ok e ->
  pages ind before (first :: es) -> writes ind e l -> Forall one_line (after ++ [last]) ->
  S (List.last (levels es) (e_level first)) < e_level e \/ e_level e = e_level first ->
  read_tree order ind (lines (before ++ l :: after) last) = SxRefused.
Proof. exact over_indented. Qed.
Print Assumptions C47_over_indented_lines_are_rejected.
(** So is a line whose name contains its identifier. *)
Theorem C47_names_with_their_identifier_are_rejected :
  forall order ind es e before l after last,
  indentation_ok ind -> (forall x, In x es -> entry_ok x /\ id_apart x) -> well_indented (levels es) -> entry_ok e -> ~ id_apart e ->
  pages ind before es -> writes ind e l -> Forall one_line (after ++ [last]) ->
  read_tree order ind (lines (before ++ l :: after) last) = SxRefused.
Proof. exact id_in_name. Qed.
Print Assumptions C47_names_with_their_identifier_are_rejected.
Example C47_rejected_example :
  indentation_ok tab /\ pages tab before1 (start1 :: next1) /\ (forall x, In x (start1 :: next1) -> entry_ok x /\ id_apart x) /\ well_indented (levels (start1 :: next1)) /\
  (exists e l, entry_ok e /\ writes tab e l /\ S (List.last (levels next1) (e_level start1)) < e_level e /\
     read_tree (fun l => l) tab (lines (before1 ++ l :: []) []) = SxRefused) /\
  (exists e l, entry_ok e /\ writes tab e l /\ ~ id_apart e /\ read_tree (fun l => l) tab (lines (before1 ++ l :: []) []) = SxRefused).
Proof. exact stop_examples. Qed.
(** Lines without a colon, and lines with nothing or an unknown mark behind it. *)
Theorem C47_lines_without_colon_are_rejected :
  forall order ind es before l after last,
  indentation_ok ind -> (forall x, In x es -> entry_ok x /\ id_apart x) -> well_indented (levels es) ->
  pages ind before es -> Forall one_line ((l :: after) ++ [last]) -> (exists c, In c l /\ ~ white c) -> ~ In ":"%char l ->
  read_tree order ind (lines (before ++ l :: after) last) = SxRefused.
Proof. exact no_colon. Qed.
Print Assumptions C47_lines_without_colon_are_rejected.
Theorem C47_unmarked_lines :
  forall order ind first es before k b after last,
  indentation_ok ind -> (forall x, In x (first :: es) -> entry_ok x /\ id_apart x) -> well_indented (levels (first :: es)) ->
  pages ind before (first :: es) -> Forall one_line (b :: after ++ [last]) -> k <= S (List.last (levels es) (e_level first)) ->
  match b with [] => True | c :: _ => ~ In c (T "rmog ") end ->
  read_tree order ind (lines (before ++ (List.concat (repeat ind k) ++ T ":" ++ b) :: after) last) = match b with [] => SxThrown | _ => SxRefused end.
Proof. exact unmarked. Qed.
Print Assumptions C47_unmarked_lines.
Example C47_unmarked_example :
  indentation_ok tab /\ pages tab before1 (start1 :: next1) /\ 2 <= S (List.last (levels next1) (e_level start1)) /\ ~ In "x"%char (T "rmog ") /\
  read_tree (fun l => l) tab (lines (before1 ++ (tab ++ tab ++ T ":x y") :: []) []) = SxRefused /\
  read_tree (fun l => l) tab (lines (before1 ++ (tab ++ tab ++ T ":") :: []) []) = SxThrown /\
  read_tree (fun l => l) tab (lines (before1 ++ T "x" :: []) []) = SxRefused.
Proof.
  split; [exact indentation1|]. split; [exact before1_ok|]. split; [exact (le_n 2)|]. split; [cbn; intuition discriminate|]. split; [|split]; vm_compute; reflexivity.
Qed.
(** A line to the left of the root fails an assertion. *)
Theorem C47_lines_left_of_the_root_are_undefined :
  forall order ind first es e before l after last,
  indentation_ok ind -> (forall x, In x (first :: es) -> entry_ok x /\ id_apart x) -> well_indented (levels (first :: es)) -> entry_ok e -> id_apart e ->
  pages ind before (first :: es) -> writes ind e l -> Forall one_line (after ++ [last]) ->
  e_level e < e_level first ->
  read_tree order ind (lines (before ++ l :: after) last) = SxUndefined.
Proof. exact left_of_root. Qed.
Print Assumptions C47_lines_left_of_the_root_are_undefined.
Example C47_left_example : exists first e before l,
  indentation_ok tab /\ pages tab before [first] /\ (entry_ok first /\ id_apart first) /\ entry_ok e /\ id_apart e /\ writes tab e l /\ e_level e < e_level first /\
  read_tree (fun l => l) tab (lines (before ++ l :: []) []) = SxUndefined.
Proof. exact left_example. Qed.
(** The level of any line: how often the indentation occurs before the colon. *)
Theorem C47_levels :
  forall ind b r n, ind <> [] -> ~ In ":"%char b -> (level_of ind (b ++ ":"%char :: r) = n <-> occurs_times ind b n).
Proof. exact level_occurs. Qed.
Print Assumptions C47_levels.
Example C47_levels_example : level_of (T "--") (T "-- x---:r a--") = 2.
Proof. reflexivity. Qed.
(** The cardinality [1,-1] is read like [1,*]. *)
Example C47_minus_one_is_a_wildcard :
  read_tree (fun l => l) tab (lines [T ":r Car"; tab ++ T ":g G [1,-1]"] []) = read_tree (fun l => l) tab (lines [T ":r Car"; tab ++ T ":g G [1,*]"] []) /\
  (exists r, read_tree (fun l => l) tab (lines [T ":r Car"; tab ++ T ":g G [1,*]"] []) = SxDone r) /\
  read_tree (fun l => l) tab (lines [T ":r Car"; tab ++ T ":g G [1,2]"] []) = SxRefused.
Proof. exact minus_one. Qed.

(** ** C48 *)
(** Whenever the replacement ends, the identifier is gone. *)
Theorem C48_replaced_identifiers_are_gone :
  forall fuel key value t r, replace_all fuel key value t = Some r -> ~ occurs key r.
Proof. exact replaced_gone. Qed.
Print Assumptions C48_replaced_identifiers_are_gone.
(** It ends if the name is shorter, or lacks a character of the identifier. *)
Theorem C48_shorter_names_terminate :
  forall key value t, List.length value < List.length key -> exists r, replace_all (S (List.length t)) key value t = Some r.
Proof. exact replace_shorter. Qed.
Print Assumptions C48_shorter_names_terminate.
Theorem C48_names_lacking_a_character_terminate :
  forall c key value t, In c key -> ~ In c value -> exists r, replace_all (S (List.length t)) key value t = Some r.
Proof. exact replace_removing. Qed.
Print Assumptions C48_names_lacking_a_character_terminate.
Example C48_replacing_example :
  replace_all 5 (T "ida") (T "a") (T "ida & ididaa") = Some (T "a & aa") /\ replace_all 3 (T "id1") (T "Radio") (T "id1 | ~id1") = Some (T "Radio | ~Radio").
Proof. split; vm_compute; reflexivity. Qed.
(** Not every replacement ends: a document that is accepted but never read. *)
Theorem C48_replacement_may_not_terminate_refuted :
  exists d es, tree_text tab es (d_tree d) /\ (forall e, In e es -> entry_ok e /\ id_apart e) /\ tree_ok es /\
  forall ord sci fuel or_first h, read_sxfm ord sci (fun l => l) fuel or_first h d = SxEndless.
Proof. exact endless. Qed.
Print Assumptions C48_replacement_may_not_terminate_refuted.
(** The lines of a readable text become exactly the constraints they state: identifiers
    are replaced by the names of their features wherever the replacements do not disturb
    each other. *)
Theorem C48_identifiers_become_names :
  forall sci es m or_first,
  NoDup (map fst m) -> (forall i n, lookup text_eqb i m = Some n <-> stands_for es i n) -> (forall e, In e es -> entry_ok e /\ id_apart e) ->
  forall t cs, constraints_text es cs t -> exists k, forall fuel, k <= fuel ->
  read_constraints sci fuel or_first m t = SxDone (map (fun c => BConstraint KBoolean (cmap (fun s => Own (T s)) c)) cs).
Proof. exact constraints_read. Qed.
Print Assumptions C48_identifiers_become_names.
Example C48_identifiers_example :
  NoDup (map fst [(T "a1", T "AM"); (T "r1", T "Red")]) /\ constraints_text entries1 [formula1] constraints1 /\
  read_constraints no_sci 9 true [(T "a1", T "AM"); (T "r1", T "Red")] constraints1 = SxDone [BConstraint KBoolean (cmap (fun s => Own (T s)) formula1)].
Proof.
  split; [apply distinct_b_ok; vm_compute; reflexivity|]. split; [exact constraints1_ok|]. vm_compute. reflexivity.
Qed.
(** If a name is itself an identifier, the constraint is about another feature. *)
Theorem C48_each_identifier_becomes_its_name_refuted :
  exists es t w n x, tree_text tab es t /\ (forall e, In e es -> entry_ok e /\ id_apart e) /\ tree_ok es /\
  stands_for es w n /\ In n (labels es) /\ x <> n /\
  match read_calls no_sci (fun l => l) 9 true (Document (Some (T "m")) None t (Some (T "c: " ++ w))) with
  | SxDone cs => constraints_of cs = [(KBoolean, CFeat (Own x))]
  | _ => False
  end.
Proof. exact cascade. Qed.
Print Assumptions C48_each_identifier_becomes_its_name_refuted.
(** An empty formula is undefined, an unreadable one is dropped, a line without a colon is rejected. *)
Example C48_bad_formulas :
  read_constraints no_sci 9 true [] (T "c:") = SxUndefined /\
  read_constraints no_sci 9 true [] (T "c: a b") = SxDone [] /\
  read_constraints no_sci 9 true [] (T "a or b") = SxRefused.
Proof. exact bad_formulas. Qed.
