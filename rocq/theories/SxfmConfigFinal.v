(** Whole documents in the SXFM format: their configurations, and what the solver does with
    negated formulas. *)
From Coq Require Import List ZArith NArith Arith Bool Ascii String Permutation Lia.
From Verif Require Import Text TextProofs LlvmInt ConstraintModel ConstraintSpec ConstraintParserModel SourceRangeModel FeatureTreeModel FeatureTreeSpec FeatureTransactionModel
  FeatureEditSpec FeatureTransactionSpec FeatureBuildSpec FeatureBuildFinal SxfmModel SxfmSpec SxfmLineProofs SxfmTreeProofs SxfmTreeFinal SxfmFormulaSpec SxfmFormulaProofs SxfmBuildProofs SxfmFinal
  XmlModel XmlSpec ConfigurationModel SolverModel SolverSpec SolverLoadProofs DescribedSpec DescribedProofs DescribedFinal SxfmConfigSpec SxfmConfigProofs.
Import ListNotations.
Local Open Scope string_scope.
Local Open Scope list_scope.
Local Open Scope nat_scope.

(** The calls of a document, and the model they build. *)
Lemma document_described ord sci order or_first h d n ind es cs :
  is_order ord -> (forall l, Permutation (order l) l) -> heap_ok h -> d_name d = Some n ->
  ind = match d_indentation d with Some i => i | None => [ascii_of_nat 9] end -> indentation_ok ind ->
  (forall e, In e es -> entry_ok e /\ id_apart e) -> tree_ok es -> tree_text ind es (d_tree d) ->
  match d_constraints d with Some t => constraints_text es cs t | None => cs = [] end -> names_known es cs ->
  exists k, forall fuel, k <= fuel -> exists h' m calls dc, read_sxfm ord sci order fuel or_first h d = SxDone (h', Some m) /\
    describes calls dc /\ as_described calls dc h' m /\ (forall s, taken dc s <-> In s (labels es)) /\ (forall s, ~ numeric_name dc s) /\
    (forall a, configures calls dc (requested calls) a <-> stated_configuration es cs (a_bool a) /\ forall c, In c cs -> ~ negates c) /\
    (inhabited_groups es -> (forall c, In c cs -> ~ negates c) -> settled calls dc (requested calls)).
Proof.
  intros Oo Or K Dn Ei Io Eo To Tt Dc Nk. destruct To as [(e & r & -> & Me & Mr) Nl Wi].
  destruct (tree_read order Or ind (e :: r) (d_tree d) Io Eo Wi Tt) as (tc & ids & Rt & Tc & Il). pose proof (tree_keys _ _ _ _ _ Rt) as Kn.
  set (ks := map (fun c => BConstraint KBoolean (owned c)) cs).
  assert (forall c, In c cs -> formula c) as Fo.
  { destruct (d_constraints d) as [t|]; [|subst cs; intros c []]. destruct Dc as (ls & last & _ & S). exact (stated_formulas _ _ _ S). }
  assert (exists k, forall fuel, k <= fuel -> read_calls sci order fuel or_first d = SxDone (BName n :: tc ++ ks)) as (k & Hk).
  { unfold read_calls. rewrite Dn. unfold default_indentation. rewrite <- Ei, Rt. cbn [sx_bind fst snd]. destruct (d_constraints d) as [t|].
    - destruct (constraints_read sci (e :: r) ids or_first Kn Il Eo t cs Dc) as (k & Hk). exists k. intros fuel L. rewrite (Hk fuel L). reflexivity.
    - exists 0. intros fuel _. subst cs. unfold ks. cbn [map]. rewrite app_nil_r. reflexivity. }
  exists k. intros fuel L. unfold read_sxfm. rewrite (Hk fuel L). cbn [sx_bind].
  assert (forall c, In c ks -> match c with BConstraint _ x => forall y, In y (leaves x) -> exists s, y = Own s /\ In s (labels (e :: r)) | _ => False end) as Ck.
  { intros c I. apply in_map_iff in I. destruct I as (x & <- & I). intros y Y. unfold owned in Y. rewrite leaves_cmap in Y. apply in_map_iff in Y. destruct Y as (s & <- & Y). exists (T s). split; [reflexivity|]. exact (Nk x s I Y). }
  assert (exists r0 rs, labels (e :: r) = r0 :: rs) as (r0 & rs & Lb).
  { pose proof (labels_length (e :: r)) as Ll. destruct (labels (e :: r)) as [|r0 rs]; [discriminate Ll|]. exists r0, rs. reflexivity. }
  pose proof (tree_describes e r tc ks n Me Mr Nl Wi Tc Ck r0 rs Lb) as Ds.
  destruct (built ord Oo h _ _ K Ds) as (h' & m & Eb & Ad & K'). rewrite Eb. exists h', m, (BName n :: tc ++ ks), (the_decl r r0 rs). split; [reflexivity|]. split; [exact Ds|]. split; [exact Ad|].
  split; [eapply taken_label; eassumption|]. split; [apply no_numeric|]. split; [intros a; unfold ks; eapply configures_stated; eassumption|unfold ks; eapply tree_settled; eassumption].
Qed.

Theorem document_valid ord sci order or_first h d n ind es cs :
  is_order ord -> (forall l, Permutation (order l) l) -> heap_ok h -> d_name d = Some n ->
  ind = match d_indentation d with Some i => i | None => [ascii_of_nat 9] end -> indentation_ok ind ->
  (forall e, In e es -> entry_ok e /\ id_apart e) -> tree_ok es -> tree_text ind es (d_tree d) ->
  match d_constraints d with Some t => constraints_text es cs t | None => cs = [] end -> names_known es cs ->
  exists k, forall fuel, k <= fuel -> exists h' m, read_sxfm ord sci order fuel or_first h d = SxDone (h', Some m) /\
    forall a, SolverSpec.valid h' m a <-> stated_configuration es cs (a_bool a) /\ forall c, In c cs -> ~ negates c.
Proof.
  intros Oo Or K Dn Ei Io Eo To Tt Dc Nk. destruct (document_described ord sci order or_first h d n ind es cs Oo Or K Dn Ei Io Eo To Tt Dc Nk) as (k & H). exists k. intros fuel L.
  destruct (H fuel L) as (h' & m & calls & dc & E & De & Ad & _ & _ & Cf & _). exists h', m. split; [exact E|]. intros a. destruct (ad_represented _ _ _ _ Ad) as (t & R).
  rewrite (described_valid calls dc h' m t R Ad De a). exact (Cf a).
Qed.

Theorem document_enumerated ord ord' check sci order or_first h d n ind es cs :
  is_order ord -> is_order ord' -> (forall l, Permutation (order l) l) -> heap_ok h -> d_name d = Some n ->
  ind = match d_indentation d with Some i => i | None => [ascii_of_nat 9] end -> indentation_ok ind ->
  (forall e, In e es -> entry_ok e /\ id_apart e) -> tree_ok es -> tree_text ind es (d_tree d) ->
  match d_constraints d with Some t => constraints_text es cs t | None => cs = [] end -> names_known es cs ->
  inhabited_groups es -> (forall c, In c cs -> ~ negates c) ->
  exists k, forall fuel, k <= fuel -> exists h' m, read_sxfm ord sci order fuel or_first h d = SxDone (h', Some m) /\
    exists N, forall fuel', N <= fuel' -> exists s, SolverModel.load ord' fuel' h' m = Some s /\
      (decides check (s_vars s) (s_asserted s) -> exists M, forall fuel'', M <= fuel'' -> answers_stated es cs (get_all check fuel'' s)).
Proof.
  intros Oo Oo' Or K Dn Ei Io Eo To Tt Dc Nk Ih Hn. destruct (document_described ord sci order or_first h d n ind es cs Oo Or K Dn Ei Io Eo To Tt Dc Nk) as (k & H). exists k. intros fuel L.
  destruct (H fuel L) as (h' & m & calls & dc & E & De & Ad & Tk & Nn & Cf & Se). exists h', m. split; [exact E|]. destruct (ad_represented _ _ _ _ Ad) as (t & R).
  destruct (enumerated_described calls dc h' m t R Ad De ord' check Oo' (Se Ih Hn)) as (N & Q). exists N. intros fuel' L'. destruct (Q fuel' L') as (s & Ls & As). exists s. split; [exact Ls|].
  intros Dec. destruct (As Dec) as (M & G). exists M. intros fuel'' L''.
  assert (forall c a, displays dc c a -> shows_selection es c (a_bool a)) as Ds.
  { intros c a X x y. rewrite (X x y), Tk. split.
    - intros (I & [(Y & _)|(_ & Y)]); [exfalso; exact (Nn _ Y)|split; [exact I|exact Y]].
    - intros (I & Y). split; [exact I|]. right. split; [apply Nn|exact Y]. }
  assert (forall sel, stated_configuration es cs sel -> configures calls dc (requested calls) (Assignment sel (fun _ => 0%Z) (fun _ => 0%Z))) as Cs.
  { intros sel S. apply Cf. split; [exact S|exact Hn]. }
  destruct (G fuel'' L'') as [(U & Z)|(l & Gl & Nl & [A B C])].
  - left. split; [exact U|]. intros sel S. exact (Z _ (Cs sel S)).
  - right. exists l. split; [exact Gl|]. split; [exact Nl|]. constructor; [| |exact C].
    + intros c I. destruct (A c I) as (a & Pa & D). exists (a_bool a). split; [exact (proj1 (proj1 (Cf a) Pa))|exact (Ds c a D)].
    + intros sel S. destruct (B _ (Cs sel S)) as (c & I & D). exists c. split; [exact I|]. exact (Ds c _ D).
Qed.

(** ** Negation *)
(** A formula is taken by the solver as a truth value, unless a "~" occurs. *)
Lemma encode_formula h (f : string -> cref) c : formula c -> (forall s, In s (leaves c) -> forall x, mention h (f s) = Some x -> fst x = false) ->
  forall vc, match encode h false (cmap f c) vc with Some (EBool _, _) => ~ negates c | Some (EInt _, _) => False | None => True end.
Proof.
  intros F. induction F as [s|c F IH|l r Fl IHl Fr IHr|l r Fl IHl Fr IHr]; intros Hm vc; cbn [cmap encode].
  - destruct (mention h (f s)) as [(b, nm)|] eqn:E; [|exact I]. pose proof (Hm s (or_introl eq_refl) _ E) as X. cbn [fst] in X. subst b. intros X. inversion X.
  - specialize (IH Hm vc). destruct (encode h false (cmap f c) vc) as [(z, v)|]; [|exact I]. destruct z; [exact I|contradiction].
  - assert (forall s, In s (leaves l) -> forall x, mention h (f s) = Some x -> fst x = false) as Hl by (intros s J; apply Hm; cbn [leaves]; apply in_or_app; left; exact J).
    assert (forall s, In s (leaves r) -> forall x, mention h (f s) = Some x -> fst x = false) as Hr by (intros s J; apply Hm; cbn [leaves]; apply in_or_app; right; exact J).
    specialize (IHl Hl vc). destruct (encode h false (cmap f l) vc) as [(z, v)|]; [|exact I]. cbn [bind]. specialize (IHr Hr v). destruct (encode h false (cmap f r) v) as [(z', v')|]; [|exact I].
    destruct z, z'; try contradiction. cbn. intros X. inversion X; contradiction.
  - assert (forall s, In s (leaves l) -> forall x, mention h (f s) = Some x -> fst x = false) as Hl by (intros s J; apply Hm; cbn [leaves]; apply in_or_app; left; exact J).
    assert (forall s, In s (leaves r) -> forall x, mention h (f s) = Some x -> fst x = false) as Hr by (intros s J; apply Hm; cbn [leaves]; apply in_or_app; right; exact J).
    specialize (IHl Hl vc). destruct (encode h false (cmap f l) vc) as [(z, v)|]; [|exact I]. cbn [bind]. specialize (IHr Hr v). destruct (encode h false (cmap f r) v) as [(z', v')|]; [|exact I].
    destruct z, z'; try contradiction. cbn. intros X. inversion X; contradiction.
Qed.
Lemma call_all_stops {A} (f : A -> solver -> sresult) x l : In x l -> (forall s, f x s = None) -> forall s, call_all f l s = None.
Proof.
  intros I H. induction l as [|y l IH]; [destruct I|]. intros s. rewrite call_all_cons. destruct I as [->|I]; [rewrite H; reflexivity|].
  destruct (f y s) as [(s1, e)|]; [exact (IH I s1)|reflexivity].
Qed.

Theorem document_negated ord sci order or_first h d n ind es cs c :
  is_order ord -> (forall l, Permutation (order l) l) -> heap_ok h -> d_name d = Some n ->
  ind = match d_indentation d with Some i => i | None => [ascii_of_nat 9] end -> indentation_ok ind ->
  (forall e, In e es -> entry_ok e /\ id_apart e) -> tree_ok es -> tree_text ind es (d_tree d) ->
  match d_constraints d with Some t => constraints_text es cs t | None => cs = [] end -> names_known es cs ->
  In c cs -> negates c ->
  exists k, forall fuel, k <= fuel -> exists h' m, read_sxfm ord sci order fuel or_first h d = SxDone (h', Some m) /\
    forall ord' fuel', SolverModel.load ord' fuel' h' m = None.
Proof.
  intros Oo Or K Dn Ei Io Eo To Tt Dc Nk Ic Ng. destruct (document_read ord sci order or_first h d n ind es cs Oo Or K Dn Ei Io Eo To Tt Dc Nk) as (k & H). exists k. intros fuel L.
  destruct (H fuel L) as (h' & m & E & _ & _ & Ai & Fb & _). exists h', m. split; [exact E|]. intros ord' fuel'.
  assert (formula c) as Fc. { destruct (d_constraints d) as [t|]; [|subst cs; destruct Ic]. destruct Dc as (ls & last & _ & S). exact (stated_formulas _ _ _ S c Ic). }
  destruct (forall2_nth_l _ _ _ _ Fb Ic) as (x & Ix & Ex).
  assert (forall s, add_constraint h' (c_expr x) s = None) as Ax.
  { intros s. unfold add_constraint, add_encoded. rewrite Ex.
    pose proof (encode_formula h' (fun s => pointing m (Own (T s))) c Fc) as Q. specialize (Q) with (vc := TConst false).
    destruct (encode h' false (cmap (fun s => pointing m (Own (T s))) c) (TConst false)) as [(z, v)|]; [|reflexivity]. exfalso.
    assert (forall s, In s (leaves c) -> forall y, mention h' (pointing m (Own (T s))) = Some y -> fst y = false) as Hm.
    { intros q Iq y. unfold pointing. destruct (In_nth_error _ _ (Nk c q Ic Iq)) as (i & Li). assert (exists e, nth_error es i = Some e) as (e & Ee).
      { destruct (nth_error es i) as [e|] eqn:X; [exists e; reflexivity|]. apply nth_error_None in X. pose proof (nth_below _ _ _ Li) as Y. rewrite labels_length in Y. lia. }
      destruct (ai_features _ _ _ Ai i e (T q) Ee Li) as (j & f & Gj & Fj & Kf & _). rewrite Gj. cbn [mention]. rewrite Fj. cbn [bind]. rewrite Kf. intros X. injection X as <-. cbn [fst]. destruct (e_mark e); reflexivity. }
    specialize (Q Hm). destruct z; [exact (Q Ng)|exact Q]. }
  unfold SolverModel.load, apply_model. destruct (group_members h' m) as [v|]; [|reflexivity]. cbn [bind]. destruct (iterate ord' (S (h_next h')) h' (m_root m)) as [fs|]; [|reflexivity]. cbn [bind].
  match goal with |- context [call_all ?f fs new_solver] => destruct (call_all f fs new_solver) as [s1|]; [|reflexivity] end. cbn [bind].
  rewrite (call_all_stops (fun y => add_constraint h' (c_expr y)) x (m_boolean m) Ix Ax s1). reflexivity.
Qed.
