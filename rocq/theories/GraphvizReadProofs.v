(** Reading the DOT text of a feature model back. *)
From Coq Require Import List ZArith NArith Arith Bool Ascii String Lia Permutation.
From Verif Require Import Text TextProofs ConstraintModel ConstraintSpec ConstraintHeapSpec ConstraintHeapProofs SourceRangeModel.
From Verif Require Import SxfmModel XmlTextSpec XmlTextProofs FeatureTreeModel FeatureTreeSpec FeatureTreeProofs FeatureEditSpec FeatureEditProofs FeatureRemoveProofs FeatureDataProofs.
From Verif Require Import GraphvizModel GraphvizSpec GraphvizProofs GraphvizFinal.
Import ListNotations.
Local Open Scope string_scope.
Local Open Scope list_scope.

Lemma split_at {A} (c : A) p : forall q r s, ~ In c p -> ~ In c q -> p ++ c :: r = q ++ c :: s -> p = q /\ r = s.
Proof.
  induction p as [|x p IH]; intros [|y q] r s Np Nq E; cbn [app] in E.
  - injection E as ->. auto.
  - exfalso. injection E as -> _. apply Nq. left. reflexivity.
  - exfalso. injection E as -> _. apply Np. left. reflexivity.
  - injection E as -> E. destruct (IH q r s) as (-> & ->); auto; intros I; [apply Np|apply Nq]; right; exact I.
Qed.
Lemma span_at {A} (P : A -> Prop) p : forall q c d r s, Forall P p -> Forall P q -> ~ P c -> ~ P d -> p ++ c :: r = q ++ d :: s -> p = q /\ c :: r = d :: s.
Proof.
  induction p as [|x p IH]; intros [|y q] c d r s Fp Fq Nc Nd E; cbn [app] in E.
  - auto.
  - exfalso. injection E as -> _. inversion Fq; auto.
  - exfalso. injection E as -> _. inversion Fp; auto.
  - injection E as -> E. inversion Fp; inversion Fq; subst. destruct (IH q c d r s) as (-> & ->); auto.
Qed.

(** ** Lines *)
Definition good (l : text) : Prop := ~ In newline l /\ forall r, l <> " "%char :: r.
Lemma indented n : forall k l l', (forall r, l <> " "%char :: r) -> (forall r, l' <> " "%char :: r) -> repeat " "%char n ++ l = repeat " "%char k ++ l' -> l = l'.
Proof.
  induction n as [|n IH]; intros [|k] l l' N N' E; cbn [repeat app] in E.
  - exact E.
  - exfalso. exact (N _ E).
  - exfalso. exact (N' _ (eq_sym E)).
  - injection E as E. eapply IH; eauto.
Qed.
Lemma no_newline_in_blanks n l : ~ In newline l -> ~ In newline (repeat " "%char n ++ l).
Proof. intros N I. apply in_app_iff in I. destruct I as [I|I]; [|auto]. apply repeat_spec in I. discriminate. Qed.
Lemma laid_out_inj a x : laid_out a x -> forall b, laid_out b x -> Forall good a -> Forall good b -> a = b.
Proof.
  induction 1 as [|n l ls t L IH]; intros b Lb Ga Gb.
  - inversion Lb as [E|k l' ls' t' L' E1 E2]; [reflexivity|]. exfalso. destruct k; [destruct l'|]; discriminate.
  - inversion Lb as [E E2|k l' ls' t' L' E1 E2]; subst.
    + exfalso. destruct n; [destruct l|]; discriminate.
    + inversion Ga as [|? ? (N1 & S1) Ga']; inversion Gb as [|? ? (N2 & S2) Gb']; subst. rewrite (app_assoc (repeat _ k)), (app_assoc (repeat _ n)) in E2. cbn [app] in E2.
      apply split_at in E2; [|apply no_newline_in_blanks; assumption..]. destruct E2 as (E2 & ->).
      f_equal; [symmetry; eapply indented; eauto|]. apply IH; assumption.
Qed.

(** ** Statements *)
Section Pointers.
Variable ptr : nid -> text.
Hypothesis P : prints_pointers ptr.

Lemma ptr_hex i : Forall hex_digit (ptr i).
Proof. apply Forall_forall. apply (pp_hex _ P). Qed.
Lemma not_hex c : existsb (Ascii.eqb c) (T "0123456789abcdefx") = false -> ~ hex_digit c.
Proof. intros E I. assert (existsb (Ascii.eqb c) (T "0123456789abcdefx") = true) as X; [|congruence]. apply existsb_exists. exists c. split; [exact I|apply Ascii.eqb_refl]. Qed.
Lemma ptr_then i j c d r s : existsb (Ascii.eqb c) (T "0123456789abcdefx") = false -> existsb (Ascii.eqb d) (T "0123456789abcdefx") = false ->
  ptr i ++ c :: r = ptr j ++ d :: s -> i = j /\ c :: r = d :: s.
Proof.
  intros Nc Nd E. apply (span_at hex_digit) in E; [|apply ptr_hex|apply ptr_hex|apply not_hex; assumption|apply not_hex; assumption].
  destruct E as (E & F). split; [apply (pp_injective _ P); exact E|exact F].
Qed.
Lemma no_newline_ptr i : ~ In newline (ptr i).
Proof. intros I. pose proof (pp_hex _ P i _ I) as H. revert H. apply not_hex. reflexivity. Qed.

Fixpoint isize (x : item) : nat := match x with ICluster _ its => S (list_sum (map isize its)) | _ => 1 end.
Lemma isize_pos x : 0 < isize x. Proof. destruct x; cbn; lia. Qed.

Lemma node_line_inj i j s s' l l' : node_line (ptr i) s l = node_line (ptr j) s' l' -> i = j /\ s = s' /\ l = l'.
Proof.
  unfold node_line. intros E. apply app_inv_head in E. apply ptr_then in E; [|reflexivity|reflexivity]. destruct E as (-> & E). split; [reflexivity|].
  apply (app_inv_head (T " [shape=")) in E.
  destruct s, s'; cbn [shape_text] in E; try discriminate E; (split; [reflexivity|]); repeat apply app_inv_head in E; apply app_inv_tail in E; exact E.
Qed.
Lemma edge_line_inj i j i' j' a a' : edge_line (ptr i) (ptr j) a = edge_line (ptr i') (ptr j') a' -> i = i' /\ j = j' /\ a = a'.
Proof.
  unfold edge_line. intros E. apply app_inv_head in E. apply ptr_then in E; [|reflexivity|reflexivity]. destruct E as (-> & E).
  apply (app_inv_head (T " -> node_")) in E. apply ptr_then in E; [|reflexivity|reflexivity]. destruct E as (-> & E).
  split; [reflexivity|]. split; [reflexivity|]. destruct a, a'; try reflexivity; discriminate E.
Qed.
Lemma node_not_edge i s l p c a : node_line (ptr i) s l <> edge_line (ptr p) (ptr c) a.
Proof. unfold node_line, edge_line. intros E. apply app_inv_head in E. apply ptr_then in E; [|reflexivity|reflexivity]. destruct E as (_ & E). discriminate E. Qed.
Lemma rank_inj is : forall is' r s, map (fun i => T "node_" ++ ptr i ++ T ";") is ++ T "}" :: r = map (fun i => T "node_" ++ ptr i ++ T ";") is' ++ T "}" :: s -> is = is' /\ r = s.
Proof.
  induction is as [|i is IH]; intros [|j js] r s E; cbn [map app] in E.
  - injection E as ->. auto.
  - discriminate E.
  - discriminate E.
  - apply (f_equal (fun l => (hd [] l, tl l))) in E. cbn [hd tl] in E. injection E as E1 E2.
    apply ptr_then in E1; [|reflexivity|reflexivity]. destruct E1 as (-> & _). apply IH in E2. destruct E2 as (-> & ->). auto.
Qed.
Lemma lines_of x : item_lines ptr x = hd [] (item_lines ptr x) :: tl (item_lines ptr x).
Proof. destruct x; reflexivity. Qed.
Lemma not_closing x : hd [] (item_lines ptr x) <> T "}".
Proof. destruct x; cbn [item_lines hd app]; discriminate. Qed.
Lemma cons_parts {A} (a b : A) (r s : list A) : a :: r = b :: s -> a = b /\ r = s.
Proof. intros E. injection E as -> ->. auto. Qed.
Lemma items_inj n : forall a b r s, list_sum (map isize a) <= n -> flat_map (item_lines ptr) a ++ T "}" :: r = flat_map (item_lines ptr) b ++ T "}" :: s -> a = b /\ r = s.
Proof.
  induction n as [|n IH]; intros a b r s L E.
  all: destruct a as [|x a]; cbn [map list_sum fold_right] in L.
  all: try (exfalso; pose proof (isize_pos x); unfold list_sum in L; cbn in L; lia).
  1,2: destruct b as [|y b]; [cbn in E; injection E as ->; auto|exfalso; cbn [flat_map] in E; rewrite lines_of in E; cbn [app] in E; apply cons_parts in E; destruct E as (E & _); exact (not_closing y (eq_sym E))].
  destruct b as [|y b].
  { exfalso. cbn [flat_map] in E. rewrite lines_of in E; cbn [app] in E; apply cons_parts in E; destruct E as (E & _). exact (not_closing x E). }
  assert (forall x y, isize x + list_sum (map isize a) = y -> list_sum (map isize a) < y) as Lt by (intros z w <-; pose proof (isize_pos z); lia).
  assert (list_sum (map isize a) <= n) as La. { specialize (Lt x _ eq_refl). unfold list_sum in *. cbn [map fold_right] in L. lia. }
  cbn [flat_map] in E. rewrite <- !app_assoc in E.
  destruct x as [i sh l|p c h|i its|is], y as [i' sh' l'|p' c' h'|i' its'|is']; cbn [item_lines] in E.
  - cbn [app] in E. apply cons_parts in E. destruct E as (E1 & E2). apply node_line_inj in E1. destruct E1 as (-> & -> & ->). apply IH in E2; [|exact La]. destruct E2 as (-> & ->). auto.
  - exfalso. cbn [app] in E. apply cons_parts in E. destruct E as (E1 & _). exact (node_not_edge _ _ _ _ _ _ E1).
  - exfalso. cbn [app] in E. apply cons_parts in E. destruct E as (E1 & _). discriminate E1.
  - exfalso. cbn [app] in E. apply cons_parts in E. destruct E as (E1 & _). discriminate E1.
  - exfalso. cbn [app] in E. apply cons_parts in E. destruct E as (E1 & _). exact (node_not_edge _ _ _ _ _ _ (eq_sym E1)).
  - cbn [app] in E. apply cons_parts in E. destruct E as (E1 & E2). apply edge_line_inj in E1. destruct E1 as (-> & -> & ->). apply IH in E2; [|exact La]. destruct E2 as (-> & ->). auto.
  - exfalso. cbn [app] in E. apply cons_parts in E. destruct E as (E1 & _). discriminate E1.
  - exfalso. cbn [app] in E. apply cons_parts in E. destruct E as (E1 & _). discriminate E1.
  - exfalso. cbn [app] in E. apply cons_parts in E. destruct E as (E1 & _). discriminate E1.
  - exfalso. cbn [app] in E. apply cons_parts in E. destruct E as (E1 & _). discriminate E1.
  - rewrite <- !app_assoc in E. cbn [app settings] in E. apply cons_parts in E. destruct E as (E1 & E2). do 3 (apply cons_parts in E2; destruct E2 as (_ & E2)).
    change (T "subgraph cluster_" ++ ptr i ++ T " {" = T "subgraph cluster_" ++ ptr i' ++ T " {") in E1. apply app_inv_head in E1. apply ptr_then in E1; [|reflexivity|reflexivity]. destruct E1 as (-> & _).
    apply IH in E2. 2:{ cbn [isize] in L. unfold list_sum in *. lia. }
    destruct E2 as (-> & E2). apply IH in E2; [|exact La]. destruct E2 as (-> & ->). auto.
  - exfalso. cbn [app] in E. apply cons_parts in E. destruct E as (E1 & _). discriminate E1.
  - exfalso. cbn [app] in E. apply cons_parts in E. destruct E as (E1 & _). discriminate E1.
  - exfalso. cbn [app] in E. apply cons_parts in E. destruct E as (E1 & _). discriminate E1.
  - exfalso. cbn [app] in E. apply cons_parts in E. destruct E as (E1 & _). discriminate E1.
  - rewrite <- !app_assoc in E. cbn [app] in E. do 2 (apply cons_parts in E; destruct E as (_ & E)). apply rank_inj in E. destruct E as (-> & E). apply IH in E; [|exact La]. destruct E as (-> & ->). auto.
Qed.

Lemma no_newline_app (a b : text) : ~ In newline a -> ~ In newline b -> ~ In newline (a ++ b).
Proof. intros A B I. apply in_app_iff in I. tauto. Qed.
Lemma no_newline_dec (a : text) : existsb (Ascii.eqb newline) a = false -> ~ In newline a.
Proof. intros E I. assert (existsb (Ascii.eqb newline) a = true) as X; [|congruence]. apply existsb_exists. exists newline. split; [exact I|apply Ascii.eqb_refl]. Qed.
Ltac plain_line := repeat first [apply no_newline_app | apply no_newline_ptr | assumption | apply no_newline_dec; reflexivity].

Fixpoint good_lines (x : item) : (forall i s l, In (i, s, l) (nodes_in x) -> ~ In newline l) -> Forall good (item_lines ptr x).
Proof.
  intros N. destruct x as [i s l|p c a|i its|is]; cbn [item_lines].
  - constructor; [|constructor]. pose proof (N i s l (or_introl eq_refl)) as Nl. split; [unfold node_line, shape_text; destruct s; plain_line|discriminate].
  - constructor; [|constructor]. split; [unfold edge_line, head_text; destruct a; plain_line|discriminate].
  - apply Forall_app. split; [constructor; [|constructor]; split; [plain_line|discriminate]|].
    apply Forall_app. split; [repeat (constructor; [split; [apply no_newline_dec; reflexivity|discriminate]|]); constructor|].
    apply Forall_app. split; [|constructor; [|constructor]; split; [plain_line|discriminate]].
    assert (forall j s l, In (j, s, l) (flat_map nodes_in its) -> ~ In newline l) as N' by exact N. clear N.
    induction its as [|y its IH]; [constructor|]. cbn [flat_map]. apply Forall_app. split.
    + apply good_lines. intros j s l I. apply (N' j s l). cbn [flat_map]. apply in_app_iff. left. exact I.
    + apply IH. intros j s l I. apply (N' j s l). cbn [flat_map]. apply in_app_iff. right. exact I.
  - apply Forall_app. split; [repeat (constructor; [split; [apply no_newline_dec; reflexivity|discriminate]|]); constructor|].
    apply Forall_app. split; [|constructor; [|constructor]; split; [plain_line|discriminate]].
    apply Forall_forall. intros y I. apply in_map_iff in I. destruct I as (i & <- & _). split; [plain_line|discriminate].
Qed.

(** ** The whole text *)
Lemma quoted_body_line t : quoted_body t -> ~ In newline t.
Proof. induction 1 as [|c t N1 N2 N3 Q IH|c t N Q IH]; [intros []|intros [E|I]; auto|intros [E|[E|I]]; auto; discriminate]. Qed.
Lemma head_lines this title name start : graph_head this title name start -> ~ In newline this ->
  exists a b, start = a ++ newline :: b ++ newline :: [newline] /\ ~ In newline a /\ ~ In newline b.
Proof.
  intros (q & r & [Q _ _] & [R _ _] & ->) Th. apply quoted_body_line in Q, R.
  assert (~ In newline (T "graph [pad=.5 nodesep=2 ranksep=2 splines=true newrank=true bgcolor=white rankdir=tb overlap=false fontname=")) as Np by (apply no_newline_dec; reflexivity).
  revert Np. generalize (T "graph [pad=.5 nodesep=2 ranksep=2 splines=true newrank=true bgcolor=white rankdir=tb overlap=false fontname="). intros pad Np.
  exists (first_line this title q), (T "  " ++ pad ++ in_quotes (T "CMU Typewriter") ++ T " label=" ++ in_quotes r ++ T "];").
  split; [change (newline :: ?x) with ([newline] ++ x); rewrite <- !app_assoc; reflexivity|]. split.
  - unfold first_line, in_quotes. destruct title; plain_line.
  - unfold in_quotes. plain_line.
Qed.
Lemma graph_text_inj this title name start its this' title' name' start' its' x :
  graph_head this title name start -> graph_head this' title' name' start' -> ~ In newline this -> ~ In newline this' ->
  (forall i s l, In (i, s, l) (flat_map nodes_in its) -> ~ In newline l) -> (forall i s l, In (i, s, l) (flat_map nodes_in its') -> ~ In newline l) ->
  graph_text ptr start its x -> graph_text ptr start' its' x -> start = start' /\ its = its'.
Proof.
  intros H H' Th Th' N N' (b & Lb & E) (b' & Lb' & E').
  destruct (head_lines _ _ _ _ H Th) as (u & v & -> & Nu & Nv). destruct (head_lines _ _ _ _ H' Th') as (u' & v' & -> & Nu' & Nv'). rewrite E in E'. clear E x.
  rewrite <- !app_assoc in E'. cbn [app] in E'. rewrite <- !app_assoc in E'. cbn [app] in E'.
  apply split_at in E'; [|assumption..]. destruct E' as (-> & E). apply split_at in E; [|assumption..]. destruct E as (-> & E). injection E as E. split; [reflexivity|].
  assert (forall its, (forall i s l, In (i, s, l) (flat_map nodes_in its) -> ~ In newline l) -> Forall good (flat_map (item_lines ptr) its ++ [T "}"])) as G.
  { clear -P. intros its N. apply Forall_app. split; [|repeat constructor; [intros [X|[]]; discriminate X|discriminate]]. induction its as [|y its IH]; [constructor|]. cbn [flat_map]. apply Forall_app. split.
    - apply good_lines. intros j s l I. apply (N j s l). cbn [flat_map]. apply in_app_iff. left. exact I.
    - apply IH. intros j s l I. apply (N j s l). cbn [flat_map]. apply in_app_iff. right. exact I. }
  assert (flat_map (item_lines ptr) its ++ [T "}"] = flat_map (item_lines ptr) its' ++ [T "}"]) as F.
  { apply (laid_out_inj _ (b ++ T "}" ++ [newline])); [apply laid_app; [exact Lb|apply (laid_one 0)]| |apply G; assumption..].
    change (b ++ T "}" ++ [newline]) with (b ++ ["}"%char; newline]). rewrite E. apply laid_app; [exact Lb'|apply (laid_one 0)]. }
  apply (items_inj _ _ _ _ _ (Nat.le_refl _)) in F. tauto.
Qed.
End Pointers.

(** ** Labels on one line *)
Lemma label_line h m u f l t : one_line t -> subtree u t -> rdata u = NFeature f -> feature_label h m f = Some l -> ~ In newline l.
Proof.
  intros O U D L. pose proof (O u f (trim (f_output f)) U D (proj1 (trim_iff _ _) eq_refl)) as No.
  unfold feature_label in L. destruct (all_some _ _) as [cs|] eqn:A; [|discriminate]. cbn [bind] in L. apply (f_equal (fun o => match o with Some x => x | None => l end)) in L. cbv beta iota in L. rewrite <- L.
  assert (forall x, ~ In newline (dot_escape x)) as Ne by (intros x; apply quoted_body_line, escape_quoted).
  assert (~ In newline (title_row f)) as N1 by (unfold title_row; repeat first [apply no_newline_app | apply Ne | assumption | apply no_newline_dec; reflexivity]).
  assert (~ In newline (flat_map constraint_row cs)) as N2.
  { intros I. apply in_flat_map in I. destruct I as (c & _ & I). revert I. unfold constraint_row. repeat first [apply no_newline_app | apply Ne | apply no_newline_dec; reflexivity]. }
  assert (~ In newline (location_rows (f_locations f))) as N3.
  { unfold location_rows. destruct (f_locations f) as [|r rs]; [intros []|]. apply no_newline_app; [apply no_newline_dec; reflexivity|].
    intros I. apply in_flat_map in I. destruct I as (c & _ & I). revert I. unfold location_row. repeat first [apply no_newline_app | apply Ne | apply no_newline_dec; reflexivity]. }
  repeat first [assumption | apply no_newline_app | apply no_newline_dec; reflexivity].
Qed.
Lemma drawing_lines h m t : one_line t -> (forall u, subtree u t -> exists l, data_label h m (rdata u) = Some l) ->
  forall i s l, In (i, s, l) (flat_map nodes_in (drawing h m t)) -> ~ In newline l.
Proof.
  intros O La i s l I.
  assert (exists u, subtree u t /\ l = label_text h m (rdata u)) as (u & U & ->).
  { clear O La. revert i s l I. induction t as [n d ts IH] using tree_ind'. intros i s l I. rewrite drawing_nodes in I. destruct I as [I|I].
    - injection I as <- <- <-. exists (Node n d ts). split; [constructor|reflexivity].
    - apply in_flat_map in I. destruct I as (k & Ik & I). rewrite Forall_forall in IH. destruct (IH k Ik _ _ _ I) as (u & U & E). exists u. split; [econstructor 2; eassumption|exact E]. }
  destruct (La u U) as (l & L). unfold label_text. rewrite L. destruct (rdata u) as [f|[]] eqn:D; cbn [data_label] in L.
  - eapply label_line; eassumption.
  - injection L as <-. apply no_newline_dec. reflexivity.
  - injection L as <-. apply no_newline_dec. reflexivity.
Qed.
Lemma pointer_line t : (forall c, In c t -> hex_digit c) -> ~ In newline t.
Proof. intros H I. specialize (H _ I). revert H. apply not_hex. reflexivity. Qed.

Lemma graphs_tell_the_tree ptr this h m t title this' h' m' t' title' x : prints_pointers ptr ->
  (forall c, In c this -> hex_digit c) -> (forall c, In c this' -> hex_digit c) ->
  represents h m t -> registered_ok h m t -> one_line t -> represents h' m' t' -> registered_ok h' m' t' -> one_line t' ->
  write_graph ptr this h m title = Some x -> write_graph ptr this' h' m' title' = Some x ->
  exists items, draws h m t items /\ draws h' m' t' items.
Proof.
  intros P Th Th' R Ro O R' Ro' O' W W'.
  destruct (graphs_draw ptr this h m t title R Ro) as (s & y & Wy & Hd & Gt & Dr). rewrite W in Wy. injection Wy as <-.
  destruct (graphs_draw ptr this' h' m' t' title' R' Ro') as (s' & y & Wy & Hd' & Gt' & Dr'). rewrite W' in Wy. injection Wy as <-.
  assert (s = s' /\ drawing h m t = drawing h' m' t') as (_ & E).
  { eapply graph_text_inj; [exact P|exact Hd|exact Hd'|apply pointer_line; exact Th|apply pointer_line; exact Th'| | |exact Gt|exact Gt'].
    - apply drawing_lines; [exact O|]. apply (data_label_exists h m t Ro).
    - apply drawing_lines; [exact O'|]. apply (data_label_exists h' m' t' Ro'). }
  exists (drawing h m t). split; [exact Dr|]. rewrite E. exact Dr'.
Qed.
