(** All models know their constraints. *)
From Coq Require Import List ZArith NArith Arith Bool Ascii String Permutation Lia.
From Verif Require Import Text TextProofs ConstraintModel ConstraintParserModel ConstraintSpec SourceRangeModel FeatureTreeModel FeatureTreeSpec FeatureTransactionModel
  FeatureEditSpec FeatureTreeProofs FeatureEditProofs FeatureBuildSpec FeatureBuildProofs FeatureBuildFinal SxfmModel SxfmTreeProofs XmlModel XmlSpec XmlReadProofs XmlFinal XmlEnrollProofs FeatureRecursiveModel RegisterSpec RegisterProofs.
Import ListNotations.
Local Open Scope list_scope.

Lemma feature_ops_fresh cs : (forall c, In c cs -> fresh_call c) -> forall o, In o (feature_ops cs) -> fresh_op o.
Proof. intros F o I. unfold feature_ops in I. apply in_flat_map in I. destruct I as (c & Ic & I). specialize (F c Ic). destruct c; cbn in I; try contradiction; destruct I as [<-|[]]; exact F || exact Logic.I. Qed.
Lemma tree_ops_fresh cs o : In o (tree_ops cs) -> fresh_op o.
Proof. intros I. unfold tree_ops in I. apply in_flat_map in I. destruct I as (c & Ic & I). destruct c; cbn in I; try contradiction; destruct I as [<-|[]]; exact Logic.I. Qed.
Lemma relation_ops_fresh cs o : In o (relation_ops cs) -> fresh_op o.
Proof. intros I. unfold relation_ops in I. apply in_flat_map in I. destruct I as (c & Ic & I). destruct c; cbn in I; try contradiction; destruct I as [<-|[]]; exact Logic.I. Qed.
Lemma build_registered ord h cs h' m : heap_ok h -> (forall c, In c cs -> fresh_call c) -> build_calls ord h cs = Some (h', Some m) -> registered h' m.
Proof.
  intros Ho F E. rewrite build_calls_queues in E. apply bind_some in E. destruct E as (((h2 & o) & b) & E & X). injection X as -> ->.
  unfold build in E. cbn [b_model b_features b_tree b_relations] in E. pose proof (new_model_registered h (T "FeatureModel") (T "root") [] [] Ho) as R0. fold (new_model h) in R0.
  apply bind_some in E. destruct E as (((t1 & w1) & e1) & E1 & E). pose proof (commit_registered _ (Mtx true (feature_ops cs)) _ _ _ _ (feature_ops_fresh cs F) E1 R0) as R1. destruct e1; [discriminate|].
  apply bind_some in E. destruct E as (((t2 & w2) & e2) & E2 & E). pose proof (commit_registered _ (Mtx true (tree_ops cs)) _ _ _ _ (tree_ops_fresh cs) E2 R1) as R2. destruct e2; [discriminate|].
  apply bind_some in E. destruct E as (((t3 & w3) & e3) & E3 & E). pose proof (commit_registered _ (Mtx true (relation_ops cs)) _ _ _ _ (relation_ops_fresh cs) E3 R2) as R3. destruct e3; [discriminate|].
  injection E as <- <- _. exact R3.
Qed.
Lemma map_option_all {A B} (f : A -> option B) (P : B -> Prop) l : forall bs, (forall a b, f a = Some b -> P b) -> map_option f l = Some bs -> forall b, In b bs -> P b.
Proof.
  induction l as [|a l IH]; intros bs H E b I; cbn [map_option] in E; [injection E as <-; contradiction|].
  apply bind_some in E. destruct E as (x & Ex & E). apply bind_some in E. destruct E as (xs & Exs & E). injection E as <-. destruct I as [<-|I]; [exact (H _ _ Ex)|exact (IH _ H Exs _ I)].
Qed.
Lemma clone_fresh map_order h m cs : clone_calls map_order h m = Some cs -> forall c, In c cs -> fresh_call c.
Proof.
  unfold clone_calls. intros E. apply bind_some in E. destruct E as (fs & Ef & E). apply bind_some in E. destruct E as (rs & Er & E). apply bind_some in E. destruct E as (bs & Eb & E).
  apply bind_some in E. destruct E as (ns & En & E). apply bind_some in E. destruct E as (xs & Ex & E). injection E as <-. intros c I.
  assert (forall k y b, clone_constraint h k y = Some b -> fresh_call b) as Cc. { intros k y b X. unfold clone_constraint in X. apply bind_some in X. destruct X as (z & _ & X). injection X as <-. exact Logic.I. }
  destruct I as [<-|[<-|[<-|I]]]; [exact Logic.I..|]. rewrite !in_app_iff in I. destruct I as [I|[I|[I|[I|I]]]].
  - apply in_concat in I. destruct I as (l & Il & I). revert c I. refine (map_option_all _ (fun l => forall c, In c l -> fresh_call c) _ fs _ Ef l Il). clear. intros (s & i) l E c I. cbn [snd] in E. unfold clone_feature in E.
    apply bind_some in E. destruct E as (f & _ & E). apply bind_some in E. destruct E as (q & _ & E).
    assert (fresh_call (match f_kind f with FUnknown => BFeature (new_feature FUnknown (f_name f) false [] []) | FRoot => BRoot (f_name f) | FBinary => BFeature (new_feature FBinary (f_name f) (f_optional f) (f_locations f) [])
      | FNumeric v _ => BFeature (new_feature (FNumeric v None) (f_name f) (f_optional f) (f_locations f) []) end)) as Mk by (destruct (f_kind f); cbn; repeat split).
    destruct q as [p|]; [apply bind_some in E; destruct E as (t & _ & E)|]; injection E as <-; [destruct I as [<-|[<-|[]]]|destruct I as [<-|[]]]; [exact Mk|exact Logic.I|exact Mk].
  - apply in_concat in I. destruct I as (l & Il & I). revert c I. refine (map_option_all _ (fun l => forall c, In c l -> fresh_call c) _ rs _ Er l Il). clear. intros i l E c I. unfold clone_relationship in E.
    apply bind_some in E. destruct E as (x & _ & E). destruct (n_data x) as [f|k]; [discriminate|]. destruct (n_parent x) as [p|]; [|injection E as <-; contradiction]. apply bind_some in E. destruct E as (cp & _ & E).
    destruct (n_data cp); injection E as <-; [destruct I as [<-|[]]; exact Logic.I|contradiction].
  - exact (map_option_all _ _ _ _ (Cc KBoolean) Eb c I).
  - exact (map_option_all _ _ _ _ (Cc KNonBoolean) En c I).
  - exact (map_option_all _ _ _ _ (fun x b X => Cc _ _ b X) Ex c I).
Qed.
Lemma clone_registered ord map_order h m h' m' : heap_ok h -> clone_model ord map_order h m = Some (h', m') -> registered h' m'.
Proof.
  unfold clone_model. intros Ho E. apply bind_some in E. destruct E as (cs & Ec & E). apply bind_some in E. destruct E as ((h1 & o) & Eb & E). apply bind_some in E. destruct E as (x & -> & E). injection E as <- <-.
  exact (build_registered ord h cs h1 x Ho (clone_fresh _ _ _ _ Ec) Eb).
Qed.
Definition copy_ok (h : heap) (t : ctx) : Prop := forall m, x_copy t = Some m -> registered h m.
Lemma translated_registered ord o f null h m w e : (forall q, fresh_op (f q)) -> (null = None \/ exists c, null = failure c (h, m)) -> translated ord o f null (h, m) = Some (w, e) -> registered h m -> registered (fst w) (snd w).
Proof.
  intros Fr Nu E R. destruct o as [i|]; cbn [translated] in E; [exact (exec_registered ord (f (ByPtr i)) h m w e (Fr _) E R)|]. destruct Nu as [->|(c & ->)]; [discriminate|injection E as <- _; exact R].
Qed.
Lemma copy_exec_registered ord o h t h' t' e : fresh_op o -> copy_exec ord o h t = Some (h', t', e) -> copy_ok h t -> copy_ok h' t'.
Proof.
  unfold copy_exec. intros Fr E C. destruct (x_copy t) as [m|] eqn:X.
  - specialize (C m X). apply bind_some in E. destruct E as ((w & e1) & E & Y). injection Y as <- <- _. intros m' Y. cbn in Y. injection Y as <-.
    destruct o as [f [p|]|r b|k r|r|r l|r l|k c|s|s|s|s|p c].
    + apply bind_some in E. destruct E as (s & _ & E). exact (exec_registered ord (OAddFeature f (get_feature m s)) h m w e1 Fr E C).
    + exact (exec_registered ord (OAddFeature f None) h m w e1 Fr E C).
    + apply bind_some in E. destruct E as (i & _ & E). refine (translated_registered ord i _ _ h m w e1 _ _ E C); [intros; exact Logic.I|right; eexists; reflexivity].
    + apply bind_some in E. destruct E as (i & _ & E). refine (translated_registered ord i _ _ h m w e1 _ _ E C); [intros; exact Logic.I|left; reflexivity].
    + apply bind_some in E. destruct E as (i & _ & E). refine (translated_registered ord i _ _ h m w e1 _ _ E C); [intros; exact Logic.I|right; eexists; reflexivity].
    + apply bind_some in E. destruct E as (i & _ & E). refine (translated_registered ord i _ _ h m w e1 _ _ E C); [intros; exact Logic.I|left; reflexivity].
    + apply bind_some in E. destruct E as (i & _ & E). refine (translated_registered ord i _ _ h m w e1 _ _ E C); [intros; exact Logic.I|left; reflexivity].
    + exact (exec_registered ord (OAddConstraint k c) h m w e1 Fr E C).
    + exact (exec_registered ord (OSetName s) h m w e1 Fr E C).
    + exact (exec_registered ord (OSetCommit s) h m w e1 Fr E C).
    + exact (exec_registered ord (OSetPath s) h m w e1 Fr E C).
    + exact (exec_registered ord (OSetRoot s) h m w e1 Fr E C).
    + injection E as <- _. exact C.
  - destruct o; try discriminate; injection E as <- <- _; intros m Y; congruence.
Qed.
Lemma copy_run_registered ord os : forall h t h' t', (forall o, In o os -> fresh_op o) -> copy_run ord os h t = Some (h', t') -> copy_ok h t -> copy_ok h' t'.
Proof.
  induction os as [|o os IH]; intros h t h' t' F E C; cbn [copy_run] in E; [injection E as <- <-; exact C|]. apply bind_some in E. destruct E as (((h1 & t1) & e) & E1 & E).
  apply (IH _ _ _ _ (fun x X => F x (or_intror X)) E). exact (copy_exec_registered ord o h t h1 t1 e (F o (or_introl eq_refl)) E1 C).
Qed.
Lemma open_copy_registered ord map_order h m h' t : heap_ok h -> open_copy ord map_order h m = Some (h', t) -> copy_ok h' t.
Proof.
  unfold open_copy, ctx_start. intros Ho E. apply bind_some in E. destruct E as (ok & _ & E). destruct ok; [|discriminate]. apply bind_some in E. destruct E as ((h1 & m1) & Ec & E). injection E as <- <-.
  intros x X. injection X as <-. exact (clone_registered _ _ _ _ _ _ Ho Ec).
Qed.
Lemma commit_copy_registered h t m t' : commit_copy h t = Some (Some m, t') -> copy_ok h t -> registered h m.
Proof.
  unfold commit_copy. intros E C. destruct (x_copy t) as [x|] eqn:X; [|discriminate]. destruct (x_continue t); [|discriminate]. apply bind_some in E. destruct E as (ok & _ & E). destruct ok; [|discriminate]. injection E as <- _. exact (C x X).
Qed.
Lemma merge_registered ord strict m1 fuel : forall f h t b h' t', merge_subtree ord fuel strict m1 f h t = Some (b, h', t') -> copy_ok h t -> copy_ok h' t'.
Proof.
  induction fuel as [|k IH]; intros f h t b h' t' E C; cbn [merge_subtree] in E; [discriminate|].
  apply bind_some in E. destruct E as (x & _ & E). apply bind_some in E. destruct E as (((ok & h1) & t1) & E1 & E).
  assert (copy_ok h1 t1) as C1.
  { destruct (get_feature m1 (f_name x)) as [c|].
    - apply bind_some in E1. destruct E1 as (same & _ & E1). destruct same; [|injection E1 as _ <- <-; exact C]. apply bind_some in E1. destruct E1 as (y & _ & E1). apply bind_some in E1. destruct E1 as ((h2 & t2) & E2 & E1). injection E1 as _ <- <-.
      refine (copy_run_registered ord _ _ _ _ _ _ E2 C). intros o I. apply in_map_iff in I. destruct I as (l & <- & _). exact Logic.I.
    - destruct (feature_copy x) as [y|] eqn:Ey; [|injection E1 as _ <- <-; exact C]. apply bind_some in E1. destruct E1 as (p & _ & E1). apply bind_some in E1. destruct E1 as (((h2 & t2) & e) & E2 & E1). injection E1 as _ <- <-.
      refine (copy_exec_registered ord (OAddFeature y p) h t h2 t2 e _ E2 C). unfold feature_copy in Ey. destruct (f_kind x); try discriminate; injection Ey as <-; repeat split. }
  destruct (negb ok); [injection E as _ <- <-; exact C1|]. apply bind_some in E. destruct E as (cs & _ & E). 

  assert (forall cs o h' t' b, fold_left (fun o c => let* (b, h2, t2) := o in if (b : bool) then merge_subtree ord k strict m1 c h2 t2 else Some (false, h2, t2)) cs o = Some (b, h', t') ->
    (forall b h1 t1, o = Some (b, h1, t1) -> copy_ok h1 t1) -> copy_ok h' t') as Fo.
  { clear -IH. induction cs as [|c cs IHc]; intros o h' t' b E C; cbn [fold_left] in E; [exact (C _ _ _ E)|]. apply (IHc _ _ _ _ E). intros b1 h1 t1 X. apply bind_some in X. destruct X as (((b2 & h2) & t2) & -> & X).
    specialize (C _ _ _ eq_refl). destruct b2; [exact (IH _ _ _ _ _ _ X C)|injection X as _ <- <-; exact C]. }
  refine (Fo _ _ _ _ _ E _). intros b1 h2 t2 X. injection X as _ <- <-. exact C1.
Qed.
Lemma merged_registered ord map_order h m1 m2 strict h' m' : heap_ok h -> merge_models ord map_order h m1 m2 strict = Some (h', Some m') -> registered h' m'.
Proof.
  unfold merge_models. intros Ho E. apply bind_some in E. destruct E as ((h1 & t) & Eo & E). apply bind_some in E. destruct E as (r & _ & E). apply bind_some in E. destruct E as (((ok & h2) & t2) & Em & E).
  destruct ok; cbn [negb] in E; [|discriminate]. apply bind_some in E. destruct E as ((o & t3) & Ec & E). apply bind_some in E. destruct E as (x & -> & E). injection E as <- <-.
  exact (commit_copy_registered _ _ _ _ Ec (merge_registered _ _ _ _ _ _ _ _ _ _ Em (open_copy_registered _ _ _ _ _ _ Ho Eo))).
Qed.
Lemma removals_fresh b rs o : In o (map (fun r => ORemoveFeature r b) rs) -> fresh_op o.
Proof. intros I. apply in_map_iff in I. destruct I as (r & <- & _). exact Logic.I. Qed.
Lemma removed_registered ord part_order fuel : forall w rs w' left, remove_features ord part_order fuel w rs = Some (w', left) -> registered (fst w) (snd w) -> registered (fst w') (snd w').
Proof.
  induction fuel as [|k IH]; intros w rs w' left E R; cbn [remove_features] in E; [discriminate|]. destruct rs as [|r rs]; [injection E as <- _; exact R|].
  apply bind_some in E. destruct E as ((yes & no) & _ & E). destruct yes as [|y yes]; [injection E as <- _; exact R|].
  apply bind_some in E. destruct E as (t & _ & E). apply bind_some in E. destruct E as (((t1 & w1) & e) & E1 & E).
  exact (IH _ _ _ _ E (commit_registered _ (Mtx (t_open t) _) _ _ _ _ (removals_fresh false (part_order (y :: yes))) E1 R)).
Qed.
Lemma listed_registered ord part_order addr recursive fuel : forall w rs w' left, remove_listed ord part_order addr recursive fuel w rs = Some (w', left) -> registered (fst w) (snd w) -> registered (fst w') (snd w').
Proof.
  induction fuel as [|k IH]; intros w rs w' left E R; cbn [remove_listed] in E; [discriminate|]. destruct rs as [|r rs]; [injection E as <- _; exact R|].
  apply bind_some in E. destruct E as ((yes & no) & _ & E). destruct yes as [|y yes]; [injection E as <- _; exact R|].
  apply bind_some in E. destruct E as (t & _ & E). apply bind_some in E. destruct E as (((t1 & w1) & e) & E1 & E).
  exact (IH _ _ _ _ E (commit_registered _ (Mtx (t_open t) _) _ _ _ _ (removals_fresh recursive (part_order (y :: yes))) E1 R)).
Qed.
Lemma detect_registered ord h m w : XmlModel.detect ord h m = Some w -> registered h m -> registered (fst w) (snd w).
Proof.
  unfold XmlModel.detect. intros E R. apply bind_some in E. destruct E as (t & _ & E). apply bind_some in E. destruct E as (fs & _ & E). apply bind_some in E. destruct E as (ops & Eo & E).
  apply bind_some in E. destruct E as (((t1 & w1) & e) & E1 & E). injection E as <-. refine (commit_registered _ (Mtx (t_open t) ops) _ _ _ _ _ E1 R). cbn [t_queue]. clear -Eo. revert ops Eo.
  induction fs as [|i fs IH]; intros ops E o I; cbn [fold_right] in E; [injection E as <-; contradiction|]. apply bind_some in E. destruct E as (cs & _ & E). apply bind_some in E. destruct E as (b & _ & E).
  apply bind_some in E. destruct E as (r & Er & E). destruct b; injection E as <-; [destruct I as [<-|I]; [exact Logic.I|]|]; exact (IH _ Er _ I).
Qed.
Lemma xml_registered ord sci step cwd h e h' m : heap_ok h -> read_xml ord sci step cwd h e = SxDone (h', Some m) -> registered h' m.
Proof.
  unfold read_xml. intros Ho E. destruct (valid e) eqn:V; [|discriminate]. apply sx_bind_done in E. destruct E as (cs & Ec & E). destruct (build_calls ord h cs) as [(h1 & [m1|])|] eqn:B; try discriminate.
  destruct (detect ord h1 m1) as [(h2 & m2)|] eqn:D; [|discriminate]. injection E as <- <-. refine (detect_registered ord h1 m1 (h2, m2) D (build_registered ord h cs h1 m1 Ho _ B)).
  apply (read_vm_iff sci step cwd e cs V) in Ec. apply stands_plain in Ec. rewrite Forall_forall in Ec. intros c I. specialize (Ec c I). destruct c; exact Ec || exact Logic.I.
Qed.
Lemma line_fresh ind s l s' : (forall c, In c (s_calls s) -> fresh_call c) -> read_line ind s l = SxDone s' -> forall c, In c (s_calls s') -> fresh_call c.
Proof.
  intros D. unfold read_line. destruct (blank l); [intros E; injection E as <-; exact D|]. destruct (negb (contains_char ":" l)); [discriminate|]. cbv zeta.
  match goal with |- (if ?b then _ else _) = _ -> _ => destruct b; [discriminate|] end. destruct (parse_line ind (level_of ind l) l) as [ln| | | |]; try discriminate. cbn [sx_bind].
  destruct (store_ids (l_name ln) (l_ids ln) (s_ids s)) as [ids|] eqn:St; [|discriminate].
  destruct (match l_name ln with [] => _ | _ => _ end) as (cnt, nm).
  assert (forall edge, (forall c, In c edge -> fresh_call c) -> forall c, In c (s_calls s ++ match l_type ln with LRoot => BRoot nm | LOptional => BFeature (new_feature FBinary nm true [] []) | _ => BFeature (new_feature FBinary nm false [] []) end
    :: edge ++ end_group (level_of ind l) (s_groups s)) -> fresh_call c) as M.
  { intros edge Fe c I. apply in_app_iff in I. destruct I as [I|[<-|I]]; [exact (D c I)|destruct (l_type ln); cbn; repeat split|]. apply in_app_iff in I. destruct I as [I|I]; [exact (Fe c I)|].
    unfold end_group in I. destruct (lookup _ _ _) as [(n & k)|]; [destruct I as [<-|[]]; exact Logic.I|contradiction]. }
  destruct (s_last s) as [k|].
  - destruct (level_of ind l =? s_root s); [discriminate|]. destruct (level_of ind l) as [|p]; [discriminate|]. destruct (lookup Nat.eqb p _) as [q|]; [|discriminate]. intros E. injection E as <-. cbn [s_calls]. apply (M [BEdge q nm]).
    intros c [<-|[]]. exact Logic.I.
  - intros E. injection E as <-. cbn [s_calls]. apply (M []). intros c [].
Qed.
Lemma tree_fresh order ind t r : read_tree order ind t = SxDone r -> forall c, In c (fst r) -> fresh_call c.
Proof.
  unfold read_tree. intros E. apply sx_bind_done in E. destruct E as (s & Es & E). injection E as <-. cbn [fst].
  assert (forall ls o s, (forall s0, o = SxDone s0 -> forall c, In c (s_calls s0) -> fresh_call c) -> fold_left (fun o l => sx_bind o (fun s => read_line ind s l)) ls o = SxDone s -> forall c, In c (s_calls s) -> fresh_call c) as H.
  { clear. induction ls as [|l ls IH]; intros o s D E; cbn [fold_left] in E; [exact (D s E)|]. refine (IH _ _ _ E). intros s1 X. apply sx_bind_done in X. destruct X as (s0 & -> & X). exact (line_fresh _ _ _ _ (D s0 eq_refl) X). }
  intros c I. apply in_app_iff in I. destruct I as [I|I]; [refine (H _ _ _ _ Es c I); intros s0 X; injection X as <-; intros ? []|]. apply in_map_iff in I. destruct I as (g & <- & _). exact Logic.I.
Qed.
Lemma constraints_fresh sci fuel or_first ids t cs : read_constraints sci fuel or_first ids t = SxDone cs -> forall c, In c cs -> fresh_call c.
Proof.
  unfold read_constraints. assert (forall ls o cs, (forall c0, o = SxDone c0 -> forall c, In c c0 -> fresh_call c) ->
    fold_left (fun o l => sx_bind o (fun cs => sx_bind (read_constraint sci fuel or_first ids l) (fun c => SxDone (cs ++ c)))) ls o = SxDone cs -> forall c, In c cs -> fresh_call c) as H.
  { clear. induction ls as [|l ls IH]; intros o cs D E; cbn [fold_left] in E; [exact (D cs E)|]. refine (IH _ _ _ E). intros s1 X. apply sx_bind_done in X. destruct X as (s0 & -> & X). apply sx_bind_done in X. destruct X as (c & Ec & X). injection X as <-.
    intros x I. apply in_app_iff in I. destruct I as [I|I]; [exact (D s0 eq_refl x I)|]. unfold read_constraint in Ec. destruct (blank l); [injection Ec as <-; contradiction|]. destruct (negb _); [discriminate|]. destruct (formula fuel or_first ids l) as [u|]; [|discriminate]. destruct (parse_text sci u); try discriminate; injection Ec as <-; [destruct I as [<-|[]]; exact Logic.I|contradiction]. }
  intros E. refine (H _ _ _ _ E). intros s0 X. injection X as <-. intros ? [].
Qed.
Lemma sxfm_registered ord sci order fuel or_first h d h' m : heap_ok h -> read_sxfm ord sci order fuel or_first h d = SxDone (h', Some m) -> registered h' m.
Proof.
  unfold read_sxfm. intros Ho E. apply sx_bind_done in E. destruct E as (cs & Ec & E). destruct (build_calls ord h cs) as [r|] eqn:B; [|discriminate]. injection E as ->. refine (build_registered ord h cs h' m Ho _ B).
  unfold read_calls in Ec. destruct (d_name d) as [n|]; [|discriminate]. apply sx_bind_done in Ec. destruct Ec as (r & Er & Ec). destruct (d_constraints d) as [t|].
  - apply sx_bind_done in Ec. destruct Ec as (xs & Ex & Ec). injection Ec as <-. intros c [<-|I]; [exact Logic.I|]. apply in_app_iff in I. destruct I as [I|I]; [exact (tree_fresh _ _ _ _ Er c I)|exact (constraints_fresh _ _ _ _ _ _ Ex c I)].
  - injection Ec as <-. intros c [<-|I]; [exact Logic.I|exact (tree_fresh _ _ _ _ Er c I)].
Qed.
Theorem obtained_registered ord h m : obtained ord h m -> registered h m.
Proof.
  induction 1 as [h name root path commit Ho|h m t t' w e O IH F E|part_order fuel h m rs w left O IH E|part_order addr recursive fuel h m rs w left O IH E|h cs h' m Ho F E|map_order h m h' m' Ho E|map_order h m h1 t1 os h' t' m' t'' Ho F E1 E2 E3|map_order h m1 m2 strict h' m' Ho E|sci step cwd h e h' m Ho E|sci order fuel or_first h d h' m Ho E].
  - exact (new_model_registered h name root path commit Ho).
  - exact (commit_registered ord t (h, m) t' w e F E IH).
  - exact (removed_registered ord part_order fuel (h, m) rs w left E IH).
  - exact (listed_registered ord part_order addr recursive fuel (h, m) rs w left E IH).
  - exact (build_registered ord h cs h' m Ho F E).
  - exact (clone_registered ord map_order h m h' m' Ho E).
  - exact (commit_copy_registered h' t' m' t'' E3 (copy_run_registered ord os h1 t1 h' t' F E2 (open_copy_registered ord map_order h m h1 t1 Ho E1))).
  - exact (merged_registered ord map_order h m1 m2 strict h' m' Ho E).
  - exact (xml_registered ord sci step cwd h e h' m Ho E).
  - exact (sxfm_registered ord sci order fuel or_first h d h' m Ho E).
Qed.
Theorem obtained_informed ord h m : obtained ord h m -> informed h m.
Proof. intros O. exact (rg_informed _ _ (obtained_registered ord h m O)). Qed.

(** ** Constraints are never given up *)
Lemma run_kept ord ops : forall w w' e, (forall o, In o ops -> fresh_op o) -> (forall k c, ~ In (OAddConstraint k c) ops) -> run ord ops w = Some (w', e) -> moved w w'.
Proof.
  induction ops as [|o r IH]; intros (h & m) w' e K N E; cbn [run] in E; [injection E as <- _; apply moved_refl|].
  apply bind_some in E. destruct E as ((w1 & e1) & E1 & E).
  assert (moved (h, m) w1) as M1 by (refine (exec_moved ord o h m w1 e1 (K o (or_introl eq_refl)) _ E1); intros k c ->; apply (N k c); left; reflexivity).
  destruct e1; [injection E as <- _; exact M1|]. eapply moved_trans; [exact M1|]. refine (IH w1 w' e _ _ E); [intros x X; apply K; right; exact X|intros k c I; apply (N k c); right; exact I].
Qed.
Theorem edits_keep_constraints ord h m t t' w e : obtained ord h m -> (forall o, In o (t_queue t) -> fresh_op o) -> (forall k c, ~ In (OAddConstraint k c) (t_queue t)) ->
  commit_modify ord t (h, m) = Some (t', w, e) -> all_constraints (snd w) = all_constraints m.
Proof.
  intros O F N E. pose proof (obtained_registered ord h m O) as R. unfold commit_modify in E. destruct (t_open t); [|injection E as _ <- _; reflexivity]. apply bind_some in E. destruct E as ((w1 & e1) & E1 & E).
  assert (w1 = w) as <-. { destruct e1; [injection E as _ <- _; reflexivity|]. apply bind_some in E. destruct E as (ok & _ & E). injection E as _ <- _. reflexivity. }
  destruct (run_kept ord _ _ _ _ F N E1) as (_ & _ & C & _); [|exact C]. split; [exact (rg_heap _ _ R)|exact (rg_keys _ _ R)].
Qed.
