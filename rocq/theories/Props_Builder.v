(** Property theorems: constraint grammar, builder, clones, rendering, visiting
    (C02, C06 - C10, C51). *)
From Coq Require Import List Ascii String ZArith Bool.
From Verif Require Import Text NumSpec ConstraintModel ConstraintSpec ConstraintParserModel
  ConstraintMachine ConstraintBuilderModel ConstraintBuilderSpec ConstraintBuilderProofs
  ConstraintAgreement ConstraintHeapModel ConstraintHeapSpec ConstraintHeapProofs.
Import ListNotations.

(** *** C02 *)

(** The precedence grammar assigns at most one tree to a word. *)
Theorem C02_grammar_unambiguous : forall w c c', spells w c -> spells w c' -> c = c'.
Proof. exact spells_fun. Qed.
Print Assumptions C02_grammar_unambiguous.

Example C02_grammar_unambiguous_ex :
  spells [SName "a"; SInf BSub; SName "b"; SInf BSub; SPre UNeg; SName "c"]%string
    (CBin BSub (CBin BSub (CFeat "a") (CFeat "b")) (CUn UNeg (CFeat "c")))%string.
Proof. apply machine_spec. reflexivity. Qed.

(** *** C06 *)

(** [build] returns a constraint exactly if the calls spell one, and then that one. *)
Theorem C06_builder_is_grammar : forall ks c,
  chain ks = Built c <-> exists w t, spelled ks w /\ spells w t /\ c = map_leaves Some t.
Proof. exact chain_spec. Qed.
Print Assumptions C06_builder_is_grammar.

(** No chain runs into an empty slot. *)
Theorem C06_builder_safe : forall ks, chain ks = BuiltNull \/ exists c, chain ks = Built c.
Proof. exact chain_safe. Qed.
Print Assumptions C06_builder_safe.

(** A builder gives its features away: building again returns the same tree with
    null features. *)
Theorem C06_second_build_loses_features : forall ks st c st',
  calls ks new_builder = BOk st -> build st = (Built c, st') ->
  fst (build st') = Built (map_leaves (fun _ => None) c).
Proof. exact build_twice. Qed.
Print Assumptions C06_second_build_loses_features.

Example C06_ex :
  chain [KSym (SName "a"); KSym (SInf BAdd); KSym (SName "b"); KPar; KSym (SInf BMul);
         KSym SOpen; KSym (SPre UNeg); KSym (SNum 3); KSym SClose; KSym (SInf BEqual);
         KSym (SName "c")]%string =
  Built (CBin BEqual (CBin BMul (CBin BAdd (CFeat (Some "a")) (CFeat (Some "b"))) (CUn UNeg (CInt 3)))
           (CFeat (Some "c")))%string /\
  chain [KSym (SName "a"); KSym SOpen]%string = BuiltNull.
Proof. split; reflexivity. Qed.

Example C06_second_build_ex : exists st st',
  calls [KSym (SPre UNot); KSym (SName "a"%string)] new_builder = BOk st /\
  build st = (Built (CUn UNot (CFeat (Some "a"%string))), st') /\
  fst (build st') = Built (CUn UNot (CFeat None)).
Proof. do 2 eexists. repeat split; reflexivity. Qed.

(** *** C07 *)

(** A text and a plain chain with the same symbols give the same result. *)
Theorem C07_same_constraint : forall sci s w c, s <> [] -> reads (literal_value sci) s w ->
  (parse_text sci s = Parsed c <-> chain (map KSym w) = Built (map_leaves Some c)).
Proof. exact parser_builder. Qed.
Print Assumptions C07_same_constraint.

Theorem C07_same_failure : forall sci s w, s <> [] -> reads (literal_value sci) s w ->
  (parse_text sci s = Rejected <-> chain (map KSym w) = BuiltNull).
Proof. exact parser_builder_fail. Qed.
Print Assumptions C07_same_failure.

(** Every chain whose symbols have spellings has such a text. *)
Theorem C07_every_chain_has_a_text : forall sci ps w,
  Forall2 (fun p s => lexeme (literal_value sci) p (Some s)) ps w ->
  reads (literal_value sci) (spaced ps) w.
Proof. exact (fun sci => reads_spaced (literal_value sci)). Qed.
Print Assumptions C07_every_chain_has_a_text.

Example C07_ex :
  let ps := [T "a"; T "=>"; T "!"; T "b"; T "&"; T "12"] in
  let w := [SName "a"; SInf BImplies; SPre UNot; SName "b"; SInf BAnd; SNum 12]%string in
  Forall2 (fun p s => lexeme (literal_value (fun _ => None)) p (Some s)) ps w /\
  parse_text (fun _ => None) (spaced ps) =
    Parsed (CBin BImplies (CFeat "a") (CBin BAnd (CUn UNot (CFeat "b")) (CInt 12)))%string /\
  chain (map KSym w) =
    Built (CBin BImplies (CFeat (Some "a")) (CBin BAnd (CUn UNot (CFeat (Some "b"))) (CInt 12)))%string.
Proof.
  cbv zeta. split; [|split; vm_compute; reflexivity].
  apply Forall2_cons; [apply (lx_name _ "a"%char []); [reflexivity|constructor|discriminate]|].
  apply Forall2_cons; [apply (lx_fixed _ "=>"%string); cbn; tauto|].
  apply Forall2_cons; [apply (lx_fixed _ "!"%string); cbn; tauto|].
  apply Forall2_cons; [apply (lx_name _ "b"%char []); [reflexivity|constructor|discriminate]|].
  apply Forall2_cons; [apply (lx_fixed _ "&"%string); cbn; tauto|].
  apply Forall2_cons; [|constructor].
  apply (lx_num (literal_value (fun _ => None)) "1"%char ["2"%char]); [reflexivity|].
  constructor; [left; reflexivity|constructor].
Qed.

(** *** C08 *)

(** After a call at a position where it is not allowed, every continuation builds null. *)
Theorem C08_misuse_sticky : forall ks, (~ exists b d, well_placed ks b d) ->
  forall ks', chain (ks ++ ks') = BuiltNull.
Proof. exact misuse_sticky. Qed.
Print Assumptions C08_misuse_sticky.

(** Without such a call some continuation builds a constraint. *)
Theorem C08_otherwise_completable : forall ks b d, well_placed ks b d ->
  exists ks' c, chain (ks ++ ks') = Built c.
Proof. exact well_placed_completable. Qed.
Print Assumptions C08_otherwise_completable.

(** Without such a call [build] succeeds exactly when an operand is complete and
    no bracket is open. *)
Theorem C08_build_when_complete : forall ks b d, well_placed ks b d ->
  ((exists c, chain ks = Built c) <-> b = true /\ d = 0).
Proof. exact well_placed_build. Qed.
Print Assumptions C08_build_when_complete.

Example C08_misuse_ex :
  let ks := [KSym (SName "a"); KSym (SName "b")]%string in
  (~ exists b d, well_placed ks b d) /\
  chain (ks ++ [KSym (SInf BAnd); KSym (SName "c"%string)]) = BuiltNull.
Proof.
  cbv zeta. split; [|reflexivity]. intros (b & d & H).
  inversion H as [E|ks b0 d0 k b' d' W P E]. apply (app_inj_tail ks [KSym (SName "a"%string)]) in E as [-> ->].
  inversion W as [E|ks b1 d1 k b2 d2 W' P' E]. apply (app_inj_tail ks []) in E as [-> ->].
  inversion P'; subst. inversion P.
Qed.

Example C08_placed_ex : well_placed [KSym SOpen; KSym (SName "a"%string); KSym (SInf BOr)] false 1.
Proof.
  apply (wp_call [KSym SOpen; KSym (SName "a"%string)] true 1); [|constructor].
  apply (wp_call [KSym SOpen] false 1); [|constructor].
  apply (wp_call [] false 0); constructor.
Qed.

(** *** C09 *)

(** The copy holds the same constraint at new addresses with new features, under
    no parent; every parent link stays inside; [getRoot] of each node of the copy
    is the copy; the original is untouched. *)
Theorem C09_clone : forall h a p c ns fs fuel,
  holds h a p c ns fs -> in_use h ns fs -> size c <= fuel ->
  exists a' h' ns' fs',
    clone fuel h a = Some (a', h') /\
    holds h' a' None c ns' fs' /\ holds h' a p c ns fs /\
    (forall b, In b ns' -> ~ In b ns) /\ (forall f, In f fs' -> ~ In f fs) /\
    (forall b, In b ns' -> get_root fuel h' b = Some a') /\
    extends h h'.
Proof. exact clone_property. Qed.
Print Assumptions C09_clone.

(** An address holds one constraint only, so text, value and features agree. *)
Theorem C09_held_constraint_unique : forall h a p c ns fs, holds h a p c ns fs ->
  forall p' c' ns' fs', holds h a p' c' ns' fs' -> p = p' /\ c = c' /\ ns = ns' /\ fs = fs'.
Proof. exact holds_fun. Qed.
Print Assumptions C09_held_constraint_unique.

Definition C09_heap : cheap :=
  snd (mk_bin (snd (mk_un (snd (alloc (snd (alloc_feature (snd (alloc
    (CHeap (fun _ => None) (fun _ => None) (fun _ => None) 0 0) (OInt 5))) "a"%string)) (OFeat 0))) UNot 1))
    BImplies 2 0).

Example C09_ex :
  holds C09_heap 3 None (CBin BImplies (CUn UNot (CFeat "a"%string)) (CInt 5)) [3; 2; 1; 0] [0] /\
  in_use C09_heap [3; 2; 1; 0] [0] /\
  option_map (fun r => (fst r, get_root 4 (snd r) 4, h_feat (snd r) 1)) (clone 4 C09_heap 3) =
    Some (7, Some 7, Some "a"%string).
Proof.
  split; [|split].
  - apply (ho_bin _ _ _ _ 2 0 _ _ [2; 1] [0] [0] []); try reflexivity.
    + apply (ho_un _ _ _ _ 1); try reflexivity. apply ho_feat; reflexivity.
    + apply ho_int; reflexivity.
  - split; repeat constructor.
  - vm_compute. reflexivity.
Qed.

(** *** C10 *)

(** The operator of the outermost infix node is escaped, the operands are not. *)
Theorem C10_outermost_escaped : forall (F : Type) (name : F -> string) o l r,
  to_html name (CBin o l r) =
  "("%char :: to_string name l ++ escape (binop_text o) ++ to_string name r ++ [")"%char].
Proof. exact @html_outermost. Qed.
Print Assumptions C10_outermost_escaped.

Theorem C10_other_nodes_raw : forall (F : Type) (name : F -> string) c,
  (forall o l r, c <> CBin o l r) -> to_html name c = to_string name c.
Proof. exact @html_other. Qed.
Print Assumptions C10_other_nodes_raw.

Theorem C10_well_escaped_iff : forall (F : Type) (name : F -> string) c,
  (forall f, Forall (fun ch => ~ markup ch) (T (name f))) ->
  (well_escaped (to_html name c) <-> ~ nested_markup_op c).
Proof. exact @html_well_escaped. Qed.
Print Assumptions C10_well_escaped_iff.

(** Escaping is therefore incomplete, already for identifiers as names. *)
Theorem C10_escaping_refuted : exists c : cexpr string,
  Forall identifier (leaves c) /\ ~ well_escaped (to_html (fun s => s) c).
Proof. exact html_counterexample. Qed.
Print Assumptions C10_escaping_refuted.

Example C10_ex :
  U (to_html (fun s => s) (CBin BImplies (CFeat "a") (CBin BLess (CFeat "b") (CInt 3))))%string =
  "(a =&gt; (b < 3))"%string.
Proof. reflexivity. Qed.

(** *** C51 *)

(** The default visitor visits all leaves left to right, whatever earlier visits
    returned, and returns the conjunction of their results. *)
Theorem C51_visitor_visits_all_leaves : forall (F V : Type) (vi : Z -> V -> bool * V) (vf : F -> V -> bool * V) c v,
  visit vi vf c v =
  let (bs, v') := visit_list vi vf (all_leaves c) v in (forallb (fun b => b) bs, v').
Proof. exact @visit_all_leaves. Qed.
Print Assumptions C51_visitor_visits_all_leaves.

Example C51_ex :
  visit (fun _ v => (true, v)) (fun f v => (false, v ++ [f]))
    (CBin BAnd (CFeat 1) (CUn UNot (CBin BLess (CInt 4) (CFeat 2)))) [] = (false, [1; 2]).
Proof. reflexivity. Qed.
