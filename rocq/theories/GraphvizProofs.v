(** Proofs about the DOT text of a feature model. *)
From Coq Require Import List ZArith NArith Arith Bool Ascii String Lia.
From Verif Require Import Text TextProofs ConstraintModel ConstraintSpec ConstraintHeapSpec ConstraintHeapProofs SourceRangeModel.
From Verif Require Import SxfmModel XmlTextSpec XmlTextProofs FeatureTreeModel FeatureTreeSpec FeatureTreeProofs FeatureEditSpec FeatureEditProofs FeatureRemoveProofs FeatureDataProofs.
From Verif Require Import GraphvizModel GraphvizSpec.
Import ListNotations.
Local Open Scope string_scope.
Local Open Scope list_scope.

(** ** Escaping *)
Lemma dot_escape_shape t : forall P : text -> text -> Prop,
  P [] [] ->
  (forall r, P r (dot_escape r) -> P (nl :: r) (backslash :: "n"%char :: dot_escape r)) ->
  (forall r, P r (dot_escape r) -> P (ascii_of_nat 9 :: r) (" "%char :: " "%char :: dot_escape r)) ->
  (forall r, P ("l"%char :: r) ("l"%char :: dot_escape r) -> P (backslash :: "l"%char :: r) (backslash :: "l"%char :: dot_escape r)) ->
  (forall d r, In d ["|"; "{"; "}"]%char -> P r (dot_escape r) -> P (backslash :: d :: r) (d :: dot_escape r)) ->
  (forall r, P r (dot_escape r) -> P (backslash :: r) (backslash :: backslash :: dot_escape r)) ->
  (forall c r, special c = true -> P r (dot_escape r) -> P (c :: r) (backslash :: c :: dot_escape r)) ->
  (forall c r, c <> nl -> c <> ascii_of_nat 9 -> c <> backslash -> special c = false -> P r (dot_escape r) -> P (c :: r) (c :: dot_escape r)) ->
  P t (dot_escape t).
Proof.
  intros P H0 H1 H2 H3 H4 H5 H6 H7.
  remember (List.length t) as n eqn:En. revert t En. induction n as [n IH] using lt_wf_ind. intros t ->.
  destruct t as [|c r]; [exact H0|]. assert (P r (dot_escape r)) as Pr by (apply (IH (List.length r)); cbn; auto).
  cbn [dot_escape]. destruct (Ascii.eqb_spec c nl) as [->|N1]; [auto|].
  destruct (Ascii.eqb_spec c (ascii_of_nat 9)) as [->|N2]; [auto|].
  destruct (Ascii.eqb_spec c backslash) as [->|N3].
  - destruct r as [|d r']; [exact (H5 [] Pr)|].
    destruct (Ascii.eqb_spec d "l") as [->|N4].
    + change (dot_escape ("l"%char :: r')) with ("l"%char :: dot_escape r') in *. auto.
    + destruct (existsb (Ascii.eqb d) ["|"; "{"; "}"]%char) eqn:X; [|auto]. apply H4.
      * apply existsb_exists in X. destruct X as (y & I & E). apply Ascii.eqb_eq in E. subst y. exact I.
      * apply (IH (List.length r')); cbn; auto.
  - destruct (special c) eqn:X; auto.
Qed.

Lemma special_codes c : special c = true -> In (code c) [34; 60; 62; 123; 124; 125].
Proof. destruct c as [[] [] [] [] [] [] [] []]; vm_compute; intros; try discriminate; tauto. Qed.
Lemma special_shown c : special c = true -> shown_char c = [backslash; c].
Proof. destruct c as [[] [] [] [] [] [] [] []]; vm_compute; intros; try discriminate; reflexivity. Qed.
Lemma plain_shown c : c <> nl -> c <> ascii_of_nat 9 -> special c = false -> shown_char c = [c].
Proof. destruct c as [[] [] [] [] [] [] [] []]; vm_compute; intros; try discriminate; try congruence; reflexivity. Qed.
Lemma special_nl c : special c = true -> c <> newline.
Proof. intros H ->. discriminate. Qed.
Lemma special_quote c : special c = false -> c <> ascii_of_nat 34.
Proof. intros H ->. discriminate. Qed.

Lemma escape_quoted t : quoted_body (dot_escape t).
Proof.
  apply (dot_escape_shape t (fun _ u => quoted_body u)).
  - constructor.
  - intros. apply qb_escaped; [discriminate|assumption].
  - intros. do 2 (apply qb_plain; [discriminate..|]). assumption.
  - intros r Q. apply qb_escaped; [discriminate|]. inversion Q; subst; assumption.
  - intros d r I Q. destruct I as [<-|[<-|[<-|[]]]]; (apply qb_plain; [discriminate..|assumption]).
  - intros. apply qb_escaped; [discriminate|assumption].
  - intros c r X Q. apply qb_escaped; [apply special_nl; exact X|assumption].
  - intros c r N1 N2 N3 X Q. apply qb_plain; [apply special_quote; exact X|exact N3|exact N1|exact Q].
Qed.
Lemma escape_chars t : ~ In (ascii_of_nat 92) t -> dot_escape t = flat_map shown_char t.
Proof.
  apply (dot_escape_shape t (fun t u => ~ In (ascii_of_nat 92) t -> u = flat_map shown_char t)).
  - reflexivity.
  - intros r H N. cbn [flat_map]. change (shown_char nl) with [backslash; "n"%char]. cbn. rewrite H; [reflexivity|]. intros I. apply N. right. exact I.
  - intros r H N. cbn [flat_map]. rewrite H; [reflexivity|]. intros I. apply N. right. exact I.
  - intros r _ N. exfalso. apply N. left. reflexivity.
  - intros d r _ _ N. exfalso. apply N. left. reflexivity.
  - intros r _ N. exfalso. apply N. left. reflexivity.
  - intros c r X H N. cbn [flat_map]. rewrite special_shown by exact X. cbn. rewrite H; [reflexivity|]. intros I. apply N. right. exact I.
  - intros c r N1 N2 N3 X H N. cbn [flat_map]. rewrite plain_shown by assumption. cbn. rewrite H; [reflexivity|]. intros I. apply N. right. exact I.
Qed.

Lemma not_markup_backslash : ~ markup backslash. Proof. intros [H|[H|H]]; discriminate. Qed.
(** Escaping leaves entities alone. *)
Lemma escape_plain c t : ~ markup c -> exists a d, Forall (fun c => ~ markup c) a /\ dot_escape (c :: t) = a ++ dot_escape d /\ (d = t \/ exists x, t = x :: d /\ ~ markup x).
Proof.
  intros M. cbn [dot_escape].
  destruct (Ascii.eqb_spec c nl) as [->|N1].
  { exists [backslash; "n"%char], t. split; [|auto]. repeat constructor; intros [H|[H|H]]; discriminate. }
  destruct (Ascii.eqb_spec c (ascii_of_nat 9)) as [->|N2].
  { exists (T "  "), t. split; [|auto]. repeat constructor; intros [H|[H|H]]; discriminate. }
  destruct (Ascii.eqb_spec c backslash) as [->|N3].
  - destruct t as [|d r].
    { exists [backslash; backslash], []. split; [|auto]. repeat constructor; intros [H|[H|H]]; discriminate. }
    destruct (Ascii.eqb_spec d "l") as [->|N4].
    { exists [backslash], ("l"%char :: r). split; [|auto]. repeat constructor; intros [H|[H|H]]; discriminate. }
    destruct (existsb (Ascii.eqb d) ["|"; "{"; "}"]%char) eqn:X.
    + assert (~ markup d) as Md.
      { intros [->|[->| ->]]; discriminate X. }
      exists [d], r. split; [repeat constructor; exact Md|]. split; [reflexivity|]. right. exists d. auto.
    + exists [backslash; backslash], (d :: r). split; [|auto]. repeat constructor; intros [H|[H|H]]; discriminate.
  - destruct (special c) eqn:X.
    + exists [backslash; c], t. split; [|auto]. constructor; [exact not_markup_backslash|]. constructor; [exact M|constructor].
    + exists [c], t. split; [|auto]. constructor; [exact M|constructor].
Qed.
Lemma we_tail x t : ~ markup x -> well_escaped (x :: t) -> well_escaped t.
Proof.
  intros M W. inversion W as [|c u N Wt E|e u I Wt E].
  - exact Wt.
  - exfalso. destruct I as [<-|[<-|[<-|[]]]]; cbn in E; injection E as E' _; apply M; subst x; right; right; reflexivity.
Qed.
Lemma escape_markup t : well_escaped t -> well_escaped (dot_escape t).
Proof.
  remember (List.length t) as n eqn:En. revert t En. induction n as [n IH] using lt_wf_ind. intros t -> W.
  inversion W as [|c u N Wu E|e u I Wu E]; subst t.
  - constructor.
  - destruct (escape_plain c u N) as (a & d & Fa & -> & [->|(x & -> & Mx)]); (apply we_app; [apply plain_we; exact Fa|]).
    + apply (IH (List.length u)); cbn; auto.
    + apply (IH (List.length d)); cbn; auto. eapply we_tail; [exact Mx|exact Wu].
  - assert (dot_escape (e ++ u) = e ++ dot_escape u) as -> by (destruct I as [<-|[<-|[<-|[]]]]; reflexivity).
    apply we_entity; [exact I|]. apply (IH (List.length u)); [|reflexivity|exact Wu]. rewrite app_length. destruct I as [<-|[<-|[<-|[]]]]; cbn; lia.
Qed.
Lemma escape_shown t : shown_as t (dot_escape t).
Proof. split; [apply escape_quoted|apply escape_chars|apply escape_markup]. Qed.

(** ** Constraints and labels *)
Lemma mention_name_iff h r s : mention_name h r = Some s <-> mentioned h r s.
Proof.
  destruct r as [u|i]; cbn [mention_name mentioned].
  - split; [intros E; injection E as ->; reflexivity|intros ->; reflexivity].
  - unfold name_at. split.
    + intros H. destruct (feature_at h i) as [f|]; [|discriminate]. exists f. cbn in H. injection H as <-. auto.
    + intros (f & -> & ->). reflexivity.
Qed.
Lemma named_expr_iff h e : forall x, named_expr h e = Some x <-> spelled_out h e x.
Proof.
  induction e as [o l IHl r IHr|o e IH|n|r]; intros x; cbn [named_expr].
  - split.
    + intros H. destruct (named_expr h l) as [a|]; [|discriminate]. destruct (named_expr h r) as [b|]; [|discriminate].
      cbn [bind] in H. injection H as <-. constructor; [apply IHl|apply IHr]; reflexivity.
    + intros H. inversion H; subst. apply IHl in H4. apply IHr in H5. rewrite H4, H5. reflexivity.
  - split.
    + intros H. destruct (named_expr h e) as [a|]; [|discriminate]. cbn [bind] in H. injection H as <-. constructor. apply IH. reflexivity.
    + intros H. inversion H; subst. apply IH in H3. rewrite H3. reflexivity.
  - split; [intros E; injection E as <-; constructor|intros H; inversion H; reflexivity].
  - split.
    + intros H. destruct (mention_name h r) as [s|] eqn:E; [|discriminate]. cbn [bind] in H. injection H as <-. constructor. apply mention_name_iff. exact E.
    + intros H. inversion H; subst. apply mention_name_iff in H1. rewrite H1. reflexivity.
Qed.
Lemma owned_in m id e : owned_by m id e <-> exists c, In c (model_constraints m) /\ c_id c = id /\ c_expr c = e.
Proof.
  unfold owned_by, model_constraints. split.
  - intros (c & E & X & I). exists c. split; [|auto]. rewrite !in_app_iff. destruct I as [I|[I|(x & I & <-)]]; auto. right. right. apply in_map. exact I.
  - intros (c & I & E & X). exists c. split; [exact E|]. split; [exact X|]. rewrite !in_app_iff in I. destruct I as [I|[I|I]]; auto.
    apply in_map_iff in I. destruct I as (x & <- & I). right. right. exists x. auto.
Qed.
Lemma constraint_of_owned m id e : constraint_of m id = Some e -> owned_by m id e.
Proof.
  unfold constraint_of. intros H. destruct (find (fun c => Nat.eqb (c_id c) id) (model_constraints m)) as [c|] eqn:F; [|discriminate].
  apply find_some in F. destruct F as (I & E). apply Nat.eqb_eq in E. injection H as <-. apply owned_in. exists c. auto.
Qed.
Lemma owned_constraint_of m id e : owned_by m id e -> exists e', constraint_of m id = Some e'.
Proof.
  intros O. apply owned_in in O. destruct O as (c & I & E & X). unfold constraint_of.
  destruct (find (fun c => Nat.eqb (c_id c) id) (model_constraints m)) as [c'|] eqn:F; [eexists; reflexivity|].
  exfalso. pose proof (find_none _ _ F c I) as G. cbn in G. rewrite E, Nat.eqb_refl in G. discriminate.
Qed.
Lemma all_some_iff {A B} (f : A -> option B) l : forall ys, all_some f l = Some ys <-> Forall2 (fun x y => f x = Some y) l ys.
Proof.
  induction l as [|x l IH]; intros ys; cbn [all_some].
  - split; [intros E; injection E as <-; constructor|intros H; inversion H; reflexivity].
  - split.
    + intros H. destruct (f x) as [y|] eqn:E; [|discriminate]. destruct (all_some f l) as [zs|]; [|discriminate]. cbn [bind] in H. injection H as <-.
      constructor; [exact E|]. apply IH. reflexivity.
    + intros H. inversion H as [|a b c d E G]; subst. rewrite E. apply IH in G. rewrite G. reflexivity.
Qed.

Definition cell_b (rows : text) : html := HTag (T "tr") [] [HTag (T "td") [] [HTag (T "b") [] [HText rows]]].
Definition cell (row : text) : html := HTag (T "tr") [] [HTag (T "td") [] [HText row]].
Definition attributes : text := T " align=" ++ quoted (T "center") ++ T " valign=" ++ quoted (T "middle") ++ T " border=" ++ quoted (T "0") ++
        T " cellborder=" ++ quoted (T "0") ++ T " cellpadding=" ++ quoted (T "5").
Definition table (title : text) (cs ls : list text) : html :=
  HTag (T "table") attributes (cell_b title :: map cell cs ++ match ls with [] => [] | _ => HEmpty (T "hr") :: map cell_b ls end).

Lemma render_cells cs : flat_map render (map (fun c => cell (dot_escape c)) cs) = flat_map constraint_row cs.
Proof.
  induction cs as [|c cs IH]; [reflexivity|]. cbn [map flat_map]. rewrite IH. f_equal. unfold constraint_row, cell. cbn [render flat_map].
  rewrite !app_nil_r, <- ?app_assoc. reflexivity.
Qed.
Lemma render_cells_b ls : flat_map render (map (fun l => cell_b (dot_escape (range_text l))) ls) = flat_map location_row ls.
Proof.
  induction ls as [|c cs IH]; [reflexivity|]. cbn [map flat_map]. rewrite IH. f_equal. unfold location_row, cell_b. cbn [render flat_map].
  rewrite !app_nil_r, <- ?app_assoc. reflexivity.
Qed.
Lemma render_locations ls : flat_map render (match map (fun l => dot_escape (range_text l)) ls with [] => [] | _ :: _ => HEmpty (T "hr") :: map cell_b (map (fun l => dot_escape (range_text l)) ls) end) = location_rows ls.
Proof.
  rewrite map_map. pose proof (render_cells_b ls) as R. destruct ls as [|l ls]; [reflexivity|]. unfold location_rows. rewrite <- R. reflexivity.
Qed.
Lemma texts_cells cs : flat_map html_texts (map cell cs) = cs.
Proof. induction cs as [|c cs IH]; [reflexivity|]. cbn. f_equal. exact IH. Qed.
Lemma texts_cells_b cs : flat_map html_texts (map cell_b cs) = cs.
Proof. induction cs as [|c cs IH]; [reflexivity|]. cbn. f_equal. exact IH. Qed.
Lemma table_texts t cs ls : html_texts (table t cs ls) = t :: cs ++ ls.
Proof.
  unfold table. cbn [html_texts flat_map cell_b]. cbn [app]. f_equal. rewrite flat_map_app, texts_cells. f_equal.
  destruct ls as [|l ls]; [reflexivity|]. cbn [flat_map html_texts app]. apply (texts_cells_b (l :: ls)).
Qed.
Lemma cell_ok c : html_ok (cell c).
Proof. repeat (constructor; try (cbn; tauto)). Qed.
Lemma cell_b_ok c : html_ok (cell_b c).
Proof. repeat (constructor; try (cbn; tauto)). Qed.
Lemma table_ok t cs ls : html_ok (table t cs ls).
Proof.
  constructor; [left; reflexivity| |].
  - intros c I. assert (forallb (fun c => negb (Ascii.eqb c "<") && negb (Ascii.eqb c ">")) attributes = true) as F by reflexivity.
    rewrite forallb_forall in F. specialize (F c I). apply andb_true_iff in F. rewrite !negb_true_iff, !Ascii.eqb_neq in F. exact F.
  - constructor; [apply cell_b_ok|]. apply Forall_app. split; [apply Forall_forall; intros x I; apply in_map_iff in I; destruct I as (y & <- & _); apply cell_ok|].
    destruct ls; [constructor|]. constructor; [constructor; cbn; tauto|]. apply Forall_forall; intros x I; apply in_map_iff in I; destruct I as (y & <- & _); apply cell_b_ok.
Qed.
Lemma label_render h m f cs :
  all_some (fun k : nat * nat => let* e := constraint_of m (fst k) in constraint_html h e) (f_constraints f) = Some cs ->
  feature_label h m f = Some (T "<" ++ render (table (dot_escape (f_name f) ++ T " (Flag: " ++ trim (f_output f) ++ T ")") (map dot_escape cs) (map (fun l => dot_escape (range_text l)) (f_locations f))) ++ T ">").
Proof.
  intros A. unfold feature_label. rewrite A. cbn [bind]. f_equal. unfold table. cbn [render flat_map].
  rewrite flat_map_app. rewrite map_map, render_cells.
  assert (flat_map render (match map (fun l => dot_escape (range_text l)) (f_locations f) with [] => [] | _ :: _ => HEmpty (T "hr") :: map cell_b (map (fun l => dot_escape (range_text l)) (f_locations f)) end) = location_rows (f_locations f)) as ->.
  { apply render_locations. }
  unfold title_row, cell_b, attributes. cbn [render flat_map]. rewrite !app_nil_r. rewrite <- !app_assoc. reflexivity.
Qed.

Lemma rows_spec h m f xs cs : registered h m f xs -> cs = map (to_html U) xs ->
  feature_rows h m f ((dot_escape (f_name f) ++ T " (Flag: " ++ trim (f_output f) ++ T ")") :: map dot_escape cs ++ map (fun l => dot_escape (range_text l)) (f_locations f)).
Proof.
  intros R ->. exists (dot_escape (f_name f)), (trim (f_output f)), xs, (map dot_escape (map (to_html U) xs)), (map (fun l => dot_escape (range_text l)) (f_locations f)).
  split; [apply escape_shown|]. split; [apply trim_iff; reflexivity|]. split; [exact R|]. split.
  - clear. induction xs; constructor; [apply escape_shown|assumption].
  - split; [|reflexivity]. clear. induction (f_locations f); constructor; [apply escape_shown|assumption].
Qed.
Lemma htmls_registered h m f : forall cs,
  all_some (fun k : nat * nat => let* e := constraint_of m (fst k) in constraint_html h e) (f_constraints f) = Some cs ->
  exists xs, registered h m f xs /\ cs = map (to_html U) xs.
Proof.
  unfold registered. induction (f_constraints f) as [|k ks IH]; intros cs H; cbn [all_some] in H.
  - injection H as <-. exists []. split; [constructor|reflexivity].
  - destruct (constraint_of m (fst k)) as [e|] eqn:C; [|discriminate]. cbn [bind] in H. unfold constraint_html in H at 1.
    destruct (named_expr h e) as [x|] eqn:N; [|discriminate]. cbn [bind] in H.
    destruct (all_some _ ks) as [ys|] eqn:A; [|discriminate]. cbn [bind] in H. injection H as <-.
    destruct (IH ys eq_refl) as (xs & F & ->). exists (x :: xs). split; [|reflexivity]. constructor; [|exact F].
    exists e. split; [apply constraint_of_owned; exact C|apply named_expr_iff; exact N].
Qed.
Lemma htmls_exist h m ks : (forall k, In k ks -> exists e x, owned_by m (fst k) e /\ spelled_out h e x) ->
  (forall id e e', owned_by m id e -> owned_by m id e' -> e = e') ->
  exists cs, all_some (fun k : nat * nat => let* e := constraint_of m (fst k) in constraint_html h e) ks = Some cs.
Proof.
  intros A Un. induction ks as [|k ks IH]; [exists []; reflexivity|]. cbn [all_some].
  destruct (A k (or_introl eq_refl)) as (e & x & O & Sp). destruct (owned_constraint_of _ _ _ O) as (e' & C). rewrite C. cbn [bind].
  rewrite <- (Un _ _ _ O (constraint_of_owned _ _ _ C)). unfold constraint_html at 1. apply named_expr_iff in Sp. rewrite Sp. cbn [bind].
  destruct IH as (cs & ->); [intros; apply A; right; assumption|]. cbn [bind]. eexists. reflexivity.
Qed.

(** ** The drawing of a tree *)
Definition data_shape (d : ndata) : shape := match d with NFeature _ => Box | NRelationship _ => Ellipse end.
Definition data_label (h : heap) (m : fmodel) (d : ndata) : option text :=
  match d with
  | NFeature f => feature_label h m f
  | NRelationship RAlternative => Some (T "ALTERNATIVE")
  | NRelationship ROr => Some (T "OR")
  end.
Definition label_text h m d : text := match data_label h m d with Some l => l | None => [] end.
Lemma data_label_spec h m d l : data_label h m d = Some l -> labels h m d (data_shape d) l.
Proof.
  destruct d as [f|[]]; cbn [data_label labels data_shape]; intros H; try (injection H as <-; split; reflexivity).
  split; [reflexivity|].
  destruct (all_some (fun k : nat * nat => let* e := constraint_of m (fst k) in constraint_html h e) (f_constraints f)) as [cs|] eqn:A.
  2:{ unfold feature_label in H. rewrite A in H. discriminate. }
  rewrite (label_render h m f cs A) in H. injection H as <-. destruct (htmls_registered h m f cs A) as (xs & R & E).
  eexists. split; [exact (rows_spec h m f xs cs R E)|]. eexists. split; [apply table_ok|]. split; [apply table_texts|reflexivity].
Qed.
Lemma data_label_exists h m t : registered_ok h m t -> forall u, subtree u t -> exists l, data_label h m (rdata u) = Some l.
Proof.
  intros [Ow Un] u U. destruct (rdata u) as [f|[]] eqn:D; cbn [data_label]; [|eexists; reflexivity..].
  destruct (htmls_exist h m (f_constraints f)) as (cs & A); [intros k I; exact (Ow u f k U D I)|exact Un|].
  rewrite (label_render h m f cs A). eexists. reflexivity.
Qed.

Section Drawing.
Variables (h : heap) (m : fmodel).
Fixpoint drawing (t : tree) : list item :=
  match t with Node n d ts =>
    INode n (data_shape d) (label_text h m d) ::
    match ts with
    | [] => []
    | _ => [ICluster n (flat_map (fun k => drawing k ++ [IEdge n (rid k) (points (rdata k))]) ts ++ [IRank (map rid ts)])]
    end
  end.

Variable ptr : nid -> text.
Lemma laid_app a : forall b x y, laid_out a x -> laid_out b y -> laid_out (a ++ b) (x ++ y).
Proof. intros b x y A. induction A; intros B; cbn [app]; [exact B|]. rewrite <- !app_assoc. constructor. auto. Qed.
Lemma laid_one n l : laid_out [l] (indent n ++ l ++ [nl]).
Proof. exact (lo_line n l [] [] lo_nil). Qed.
Lemma indent_app a b : indent a ++ indent b = indent (a + b).
Proof. unfold indent. symmetry. apply repeat_app. Qed.

Lemma emit_node_line i q d es l : h_cells h i = Some (Cell d q es) -> data_label h m d = Some l ->
  exists t, emit_node ptr h m i = Some (indent 2 ++ t ++ [nl]) /\ t = node_line (ptr i) (data_shape d) l.
Proof.
  intros C L. eexists. split; [|reflexivity]. unfold emit_node. rewrite C. cbn [bind n_data]. unfold data_label in L.
  assert (forall s, (let* label := Some l in Some (indent 2 ++ node_name ptr i ++ T " [shape=" ++ s ++ T " margin=.1 fontsize=12 fontname=" ++ quoted (T "CMU Typewriter") ++ T " label=" ++ label ++ T "];" ++ [nl])) =
    Some (indent 2 ++ (T "node_" ++ ptr i ++ T " [shape=" ++ s ++ T " margin=.1 fontsize=12 fontname=" ++ in_quotes (T "CMU Typewriter") ++ T " label=" ++ l ++ T "];") ++ [nl])) as G.
  { intros s. cbn [bind]. f_equal. unfold node_name. rewrite <- !app_assoc. reflexivity. }
  destruct d as [f|[]]; cbn [data_shape] in *.
  - rewrite L. apply G.
  - injection L as <-. apply G.
  - injection L as <-. apply G.
Qed.
Lemma arrow_head i q d es : h_cells h i = Some (Cell d q es) -> arrow h i = Some (T "arrowhead=" ++ head_text (points d)).
Proof. intros C. unfold arrow. rewrite C. cbn [bind n_data]. destruct d as [f|k]; cbn [points]; [destruct (f_optional f)|]; reflexivity. Qed.
Lemma emit_edge_line p c a : emit_edge ptr p c (T "arrowhead=" ++ head_text a) = indent 2 ++ edge_line (ptr p) (ptr c) a ++ [nl].
Proof. unfold emit_edge, edge_line, node_name. rewrite <- !app_assoc. destruct a; reflexivity. Qed.

Lemma holds_kid o n d ts t : holds h o (Node n d ts) -> In t ts -> holds h (Some n) t.
Proof. intros H I i c J. apply H. right. apply in_flat_map. exists t. auto. Qed.
Lemma holds_top o t : holds h o t -> h_cells h (rid t) = Some (Cell (rdata t) o (map rid (kids t))).
Proof. intros H. destruct t as [n d ts]. apply H. left. reflexivity. Qed.

Lemma emit_spec fuel : forall t o ind, holds h o t -> height t <= fuel -> (forall u, subtree u t -> exists l, data_label h m (rdata u) = Some l) ->
  exists x, emit_cluster ptr fuel h m (rid t) ind = Some x /\ laid_out (flat_map (item_lines ptr) (drawing t)) x.
Proof.
  induction fuel as [|fuel IH]; intros t o ind Ho He La.
  { exfalso. destruct t as [n d ts]. cbn in He. lia. }
  pose proof (holds_top o t Ho) as C. destruct (La t (sub_refl t)) as (l & L).
  destruct (emit_node_line _ _ _ _ _ C L) as (line & Em & El). destruct t as [n d ts]. cbn [rid rdata kids] in *. cbn [emit_cluster]. rewrite Em, C. cbn [bind n_edges].
  assert (laid_out [line] (indent ind ++ indent 2 ++ line ++ [nl])) as L1 by (rewrite app_assoc, indent_app; apply laid_one).
  cbn [drawing]. assert (label_text h m d = l) as -> by (unfold label_text; rewrite L; reflexivity).
  assert (item_lines ptr (INode n (data_shape d) l) = [line]) as Il by (cbn [item_lines]; rewrite El; reflexivity).
  destruct ts as [|k ts]; cbn [map].
  { eexists. split; [reflexivity|]. cbn [flat_map]. rewrite Il. exact L1. }
  change (rid k :: map rid ts) with (map rid (k :: ts)).
  assert (exists parts, all_some (fun e => let* t := emit_cluster ptr fuel h m e (ind + 2) in let* a := arrow h e in Some (t ++ indent (ind + 2) ++ emit_edge ptr n e a)) (map rid (k :: ts)) = Some parts /\
    laid_out (flat_map (item_lines ptr) (flat_map (fun k => drawing k ++ [IEdge n (rid k) (points (rdata k))]) (k :: ts))) (List.concat parts)) as (parts & -> & Lp).
  { assert (forall us, incl us (k :: ts) -> exists parts, all_some (fun e => let* t := emit_cluster ptr fuel h m e (ind + 2) in let* a := arrow h e in Some (t ++ indent (ind + 2) ++ emit_edge ptr n e a)) (map rid us) = Some parts /\
      laid_out (flat_map (item_lines ptr) (flat_map (fun k => drawing k ++ [IEdge n (rid k) (points (rdata k))]) us)) (List.concat parts)) as G; [|apply G; apply incl_refl].
    induction us as [|u us IHu]; intros Inc; [exists []; split; [reflexivity|constructor]|].
    assert (In u (k :: ts)) as Iu by (apply Inc; left; reflexivity).
    destruct IHu as (parts & Ep & Lp); [intros y Iy; apply Inc; right; exact Iy|].
    pose proof (holds_kid o n d (k :: ts) u Ho Iu) as Hu.
    destruct (IH u (Some n) (ind + 2) Hu) as (x & Ex & Lx).
    { pose proof (height_kid n d (k :: ts) u Iu). lia. }
    { intros v V. apply La. econstructor 2; eassumption. }
    cbn [map all_some]. rewrite Ex. cbn [bind]. rewrite (arrow_head _ _ _ _ (holds_top _ _ Hu)). cbn [bind]. rewrite emit_edge_line, Ep. cbn [bind].
    eexists. split; [reflexivity|]. cbn [List.concat flat_map]. rewrite !flat_map_app. apply laid_app; [|exact Lp]. apply laid_app; [exact Lx|].
    cbn [flat_map item_lines app]. rewrite app_assoc, indent_app. apply laid_one. }
  cbn [bind]. eexists. split; [reflexivity|].
  set (its := flat_map (fun k => drawing k ++ [IEdge n (rid k) (points (rdata k))]) (k :: ts)) in *. clearbody its.
  cbn [flat_map]. rewrite Il.
  assert (forall a b x y z, laid_out a x -> laid_out b y -> z = x ++ y -> laid_out (a ++ b) z) as LA by (intros; subst; apply laid_app; assumption).
  eapply LA; [exact L1| |rewrite <- !app_assoc; reflexivity].
  rewrite app_nil_r. cbn [item_lines].
  eapply LA; [apply (laid_one (ind + 2))| |rewrite <- !app_assoc; reflexivity].
  unfold settings. change ([?a; ?b; ?c] ++ ?r) with ([a] ++ [b] ++ [c] ++ r).
  eapply LA; [apply (laid_one (ind + 4))| |rewrite <- !app_assoc; reflexivity].
  eapply LA; [apply (laid_one (ind + 4))| |rewrite <- !app_assoc; reflexivity].
  eapply LA; [apply (laid_one (ind + 4))| |rewrite <- !app_assoc; reflexivity].
  rewrite flat_map_app, <- app_assoc.
  eapply LA; [exact Lp| |reflexivity].
  cbn [flat_map item_lines]. rewrite app_nil_r. change ([?a; ?b] ++ ?r) with ([a] ++ [b] ++ r).
  rewrite <- !app_assoc.
  eapply LA; [apply (laid_one (ind + 4))| |rewrite <- !app_assoc; reflexivity].
  eapply LA; [apply (laid_one (ind + 6))| |rewrite <- !app_assoc; reflexivity].
  eapply LA; [| |reflexivity].
  - clear. induction (map rid (k :: ts)) as [|e es IHe]; [constructor|]. cbn [map flat_map]. change (?a :: ?b) with ([a] ++ b).
    eapply laid_app; [|exact IHe]. pose proof (laid_one (ind + 6) (T "node_" ++ ptr e ++ T ";")) as X. rewrite <- !app_assoc in X. exact X.
  - eapply LA; [apply (laid_one (ind + 4))|apply (laid_one (ind + 2))|rewrite <- !app_assoc; reflexivity].
Qed.
End Drawing.
