(** Reading well-written documents is defined. *)
From Coq Require Import List ZArith NArith Arith Bool Ascii String Permutation Lia.
From Verif Require Import Text TextProofs LlvmInt ConstraintModel ConstraintParserModel ConstraintSpec ConstraintLexerProofs SourceRangeModel StepFunctionModel FeatureTreeModel FeatureTreeSpec FeatureTransactionModel
  FeatureTransactionSpec FeatureEditSpec FeatureCloneSpec FeatureBuildSpec FeatureBuildProofs FeatureBuildFinal SxfmModel XmlModel XmlSpec XmlTextSpec XmlTextProofs XmlEnrollProofs XmlDetectProofs
  XmlDetectFinal XmlReadProofs XmlFinal OutcomeSpec OutcomeProofs OutcomeFinal XmlOutcomeSpec.
Import ListNotations.
Local Open Scope string_scope.
Local Open Scope list_scope.
Local Open Scope nat_scope.

(** Done or refused. *)
Definition calm {A} (x : sx A) : Prop := (exists a, x = SxDone a) \/ x = SxRefused.
Lemma calm_done {A} (a : A) : calm (SxDone a).
Proof. left. eauto. Qed.
Lemma calm_bind {A B} (x : sx A) (f : A -> sx B) : calm x -> (forall a, x = SxDone a -> calm (f a)) -> calm (sx_bind x f).
Proof. intros [(a & ->)| ->] F; [exact (F a eq_refl)|right; reflexivity]. Qed.
Lemma calm_fold {A B} (f : A -> B -> sx A) l : (forall a b, In b l -> calm (f a b)) -> forall o, calm o -> calm (fold_left (fun o c => sx_bind o (fun s => f s c)) l o).
Proof.
  induction l as [|b l IH]; intros F o O; [exact O|]. cbn [fold_left]. apply IH; [intros a c I; apply F; right; exact I|]. apply calm_bind; [exact O|]. intros a _. apply F. left. reflexivity.
Qed.

Lemma fits_atoi t : fits_int t -> exists z, atoi t = Some z.
Proof. intros (z & X). exists z. apply atoi_iff. exact X. Qed.
Lemma atoi_fits t z : atoi t = Some z -> fits_int t.
Proof. intros X. exists z. apply atoi_iff. exact X. Qed.

Lemma location_calm p : (forall x, In x (elems p) -> fits_int (content x)) -> calm (read_location p).
Proof.
  intros F. unfold read_location. apply (calm_fold (fun l c => if is_tag "line" c then match atoi (content c) with Some z => SxDone (Loc (to_unsigned z) (l_column l)) | None => SxUndefined end
      else if is_tag "column" c then match atoi (content c) with Some z => SxDone (Loc (l_line l) (to_unsigned z)) | None => SxUndefined end else SxDone l)); [|apply calm_done].
  intros l x I. destruct (fits_atoi _ (F x I)) as (z & ->). destruct (is_tag "line" x); [apply calm_done|]. destruct (is_tag "column" x); apply calm_done.
Qed.

Lemma range_calm r : tag r = T "sourceRange" -> valid r = true -> range_written r -> calm (read_range r).
Proof.
  intros Er V F. unfold read_range. rewrite (category_ok r Er); [|destruct r as [n a b es]; cbn [valid] in V; apply andb_prop in V; destruct V as [V _]; apply andb_prop in V; exact (proj1 V)].
  cbn [sx_bind]. eapply (calm_fold (fun r c => let '(SourceRange p s n k m v) := r in _)); [|apply calm_done].
  intros [p s n k m v] c I. destruct (is_tag "revisionRange" c); [apply calm_done|]. destruct (is_tag "path" c); [apply calm_done|].
  destruct (is_tag "start" c) eqn:T1; [apply calm_bind; [apply location_calm; intros x X; exact (F c x I (or_introl T1) X)|intros a _; apply calm_done]|].
  destruct (is_tag "end" c) eqn:T2; [apply calm_bind; [apply location_calm; intros x X; exact (F c x I (or_intror T2) X)|intros a _; apply calm_done]|].
  destruct (is_tag "memberOffset" c); apply calm_done.
Qed.

Lemma edge_calm cs p s : calm (edge_call cs p s).
Proof. unfold edge_call. destruct (parent_name cs s) as [q|]; [destruct (text_eqb q p); [apply calm_done|right; reflexivity]|apply calm_done]. Qed.

Section Reader.
Variables (sci : text -> option text) (step : text -> sx (option (Z -> option Z))).

Lemma filled_in s c es : In c es -> is_tag s c = true -> trim (content c) <> [] -> In c (filled s es).
Proof.
  intros I Tg N. apply filter_In. split; [exact I|]. rewrite Tg. destruct (blank (content c)) eqn:B; [|reflexivity]. exfalso. apply N. apply trim_blank. exact B.
Qed.

Lemma field_calm num o s c : In c (elems o) -> valid c = true -> option_written step num o -> calm (read_field sci step num s c).
Proof.
  intros I V [W1 W2]. destruct s as [n out opt lo hi vs rs st cs]. unfold read_field. destruct (trim (content c)) as [|c0 t0] eqn:Ec; [apply calm_done|].
  assert (N : trim (content c) <> []) by congruence. rewrite <- Ec.
  destruct (is_tag "name" c); [apply calm_done|]. destruct (is_tag "outputString" c); [apply calm_done|]. destruct (is_tag "optional" c); [apply calm_done|].
  destruct (is_tag "parent" c); [apply calm_bind; [apply edge_calm|intros a _; apply calm_done]|].
  destruct (is_tag "children" c).
  { apply calm_bind; [|intros a _; apply calm_done]. apply (calm_fold (fun cs d => if is_tag "options" d then edge_call cs n (content d) else SxDone cs)); [|apply calm_done].
    intros a d _. destruct (is_tag "options" d); [apply edge_calm|apply calm_done]. }
  destruct (is_tag "excludedOptions" c); [apply calm_done|]. destruct (is_tag "impliedOptions" c); [apply calm_done|].
  destruct (is_tag "locations" c) eqn:Tl.
  { apply calm_bind; [|intros a _; apply calm_done]. apply (calm_fold (fun rs d => if is_tag "sourceRange" d then sx_bind (read_range d) (fun r => SxDone (rs ++ [r])) else SxDone rs)); [|apply calm_done].
    intros a d Id. destruct (is_tag "sourceRange" d) eqn:Td; [|apply calm_done]. apply calm_bind; [|intros r _; apply calm_done].
    apply range_calm; [apply text_eqb_eq; exact Td|exact (locations_valid c d V Id)|]. apply (W1 c d); [apply filled_in; assumption|apply filter_In; auto]. }
  destruct num; [|apply calm_done].
  destruct (is_tag "minValue" c); [apply calm_done|]. destruct (is_tag "maxValue" c); [apply calm_done|]. destruct (is_tag "values" c); [apply calm_done|].
  destruct (is_tag "stepFunction" c) eqn:Ts; [|apply calm_done]. destruct (W2 eq_refl c) as (f & Ef); [apply filled_in; assumption|]. unfold trimmed in Ef. rewrite Ef. apply calm_done.
Qed.

Lemma option_calm num cs o : valid o = true -> option_written step num o -> calm (read_option sci step num cs o).
Proof.
  intros V W. unfold read_option. apply calm_bind; [|intros a _; apply calm_done]. apply (calm_fold (fun s c => read_field sci step num s c)); [|apply calm_done].
  intros a c I. apply (field_calm num o); [exact I|exact (locations_valid o c V I)|exact W].
Qed.
Lemma options_calm num cs e : valid e = true -> (forall o, In o (elems e) -> option_written step num o) -> calm (read_options sci step num cs e).
Proof.
  intros V W. unfold read_options. apply (calm_fold (fun cs c => if is_tag "configurationOption" c then read_option sci step num cs c else SxDone cs)); [|apply calm_done].
  intros a o I. destruct (is_tag "configurationOption" o); [|apply calm_done]. apply option_calm; [exact (locations_valid e o V I)|exact (W o I)].
Qed.

Lemma constraint_calm t : t <> [] -> calm (read_constraint_text sci t).
Proof. intros N. unfold read_constraint_text. destruct (parse_text_total sci t N) as [E|(c & E)]; rewrite E; [right; reflexivity|apply calm_done]. Qed.
Lemma plain_calm k c : content c <> [] -> calm (read_plain sci k c).
Proof. intros N. apply calm_bind; [exact (constraint_calm _ N)|]. intros a _. apply calm_done. Qed.
Lemma mixed_calm c : content c <> [] -> attr "req" c <> None -> attr "exprKind" c <> None -> calm (read_mixed sci c).
Proof.
  intros N R K. apply calm_bind; [exact (constraint_calm _ N)|]. intros a _. destruct (attr "req" c); [|contradiction]. destruct (attr "exprKind" c); [|contradiction]. apply calm_done.
Qed.
Lemma section_calm f cs e : (forall c, In c (elems e) -> calm (f c)) -> calm (read_section f cs e).
Proof.
  intros F. unfold read_section. apply (calm_fold (fun cs c => if is_tag "constraint" c then sx_bind (f c) (fun b => SxDone (cs ++ [b])) else SxDone cs)); [|apply calm_done].
  intros a c I. destruct (is_tag "constraint" c); [|apply calm_done]. apply calm_bind; [exact (F c I)|]. intros b _. apply calm_done.
Qed.

Lemma vm_calm cwd e : valid e = true -> well_written step e -> calm (read_vm sci step cwd e).
Proof.
  intros V W. unfold read_vm.
  apply (calm_fold (fun cs c => if is_tag "binaryOptions" c then read_options sci step false cs c
      else if is_tag "numericOptions" c then read_options sci step true cs c
      else if is_tag "booleanConstraints" c then read_section (read_plain sci KBoolean) cs c
      else if is_tag "nonBooleanConstraints" c then read_section (read_plain sci KNonBoolean) cs c
      else if is_tag "mixedConstraints" c then read_section (read_mixed sci) cs c
      else SxDone cs)); [|apply calm_done].
  intros cs c I. pose proof (locations_valid e c V I) as Vc. destruct (W c I) as (W1 & W2 & W3 & W4).
  destruct (is_tag "binaryOptions" c); [apply options_calm; auto|].
  destruct (is_tag "numericOptions" c); [apply options_calm; auto|].
  destruct (is_tag "booleanConstraints" c); [apply section_calm; intros x X; apply plain_calm; auto|].
  destruct (is_tag "nonBooleanConstraints" c); [apply section_calm; intros x X; apply plain_calm; auto|].
  destruct (is_tag "mixedConstraints" c); [|apply calm_done]. apply section_calm. intros x X. destruct (W4 eq_refl x X) as (R & K). apply mixed_calm; auto.
Qed.

(** What stands for calls is well-written. *)
Lemma forall2_left {A B} (P : A -> B -> Prop) l r : Forall2 P l r -> forall a, In a l -> exists b, P a b.
Proof. intros F. induction F as [|x y l r X F IH]; intros a []; [subst; eauto|auto]. Qed.
Lemma ranged_written r s : ranged r s -> range_written r.
Proof.
  intros (p & a & z & la & lz & _ & Ea & Ez & Pa & Pz & _) q x Iq Tq Ix.
  assert (X : forall u l, position u l -> In x (elems u) -> fits_int (content x)).
  { intros u l (c & d & y & w & El & A1 & A2 & _) Iu. rewrite El in Iu. destruct Iu as [<-|[<-|[]]]; eapply atoi_fits; eassumption. }
  destruct Tq as [Tq|Tq].
  - assert (In q (called "start" (elems r))) as Y by (apply filter_In; auto). rewrite Ea in Y. destruct Y as [<-|[]]. exact (X a la Pa Ix).
  - assert (In q (called "end" (elems r))) as Y by (apply filter_In; auto). rewrite Ez in Y. destruct Y as [<-|[]]. exact (X z lz Pz Ix).
Qed.
Lemma option_stands_written num o cs : option_stands sci step num o cs -> option_written step num o.
Proof.
  intros (rs & fs & F1 & F2 & _). split.
  - intros l r Il Ir. destruct (forall2_left _ _ _ F1 r) as (s & S); [apply in_flat_map; eauto|]. exact (ranged_written r s S).
  - intros -> s Is. exact (forall2_left _ _ _ F2 s Is).
Qed.
Lemma nonempty t c : parse_text sci t = Parsed c -> t <> [].
Proof. intros E ->. rewrite parse_text_empty in E. discriminate. Qed.
Lemma tag_other s t e : is_tag s e = true -> text_eqb (T s) (T t) = false -> is_tag t e = false.
Proof. unfold is_tag. intros X N. apply text_eqb_eq in X. rewrite X. exact N. Qed.
Lemma section_stands_written e cs : section_stands sci step e cs -> section_written step e.
Proof.
  unfold section_stands, section_written.
  assert (Pl : forall k, Forall2 (plain_stands sci k) (elems e) cs -> forall c, In c (elems e) -> content c <> []).
  { intros k F c I. destruct (forall2_left _ _ _ F c I) as (b & x & E & _). exact (nonempty _ _ E). }
  destruct (is_tag "binaryOptions" e) eqn:T1.
  { rewrite (tag_other _ "numericOptions" e T1), (tag_other _ "booleanConstraints" e T1), (tag_other _ "nonBooleanConstraints" e T1), (tag_other _ "mixedConstraints" e T1) by reflexivity.
    intros (l & F & _). split; [intros _ o I; destruct (forall2_left _ _ _ F o I) as (b & B); exact (option_stands_written _ _ _ B)|]. split; [discriminate|]. split; [intuition discriminate|discriminate]. }
  destruct (is_tag "numericOptions" e) eqn:T2.
  { rewrite (tag_other _ "booleanConstraints" e T2), (tag_other _ "nonBooleanConstraints" e T2), (tag_other _ "mixedConstraints" e T2) by reflexivity.
    intros (l & F & _). split; [discriminate|]. split; [intros _ o I; destruct (forall2_left _ _ _ F o I) as (b & B); exact (option_stands_written _ _ _ B)|]. split; [intuition discriminate|discriminate]. }
  destruct (is_tag "booleanConstraints" e) eqn:T3.
  { rewrite (tag_other _ "mixedConstraints" e T3) by reflexivity. intros F. split; [discriminate|]. split; [discriminate|]. split; [intros _; exact (Pl _ F)|discriminate]. }
  destruct (is_tag "nonBooleanConstraints" e) eqn:T4.
  { rewrite (tag_other _ "mixedConstraints" e T4) by reflexivity. intros F. split; [discriminate|]. split; [discriminate|]. split; [intros _; exact (Pl _ F)|discriminate]. }
  destruct (is_tag "mixedConstraints" e) eqn:T5.
  - intros F. split; [discriminate|]. split; [discriminate|]. split.
    + intros _ c I. destruct (forall2_left _ _ _ F c I) as (b & x & r & k & E & _). exact (nonempty _ _ E).
    + intros _ c I. destruct (forall2_left _ _ _ F c I) as (b & x & r & k & _ & R & K & _). rewrite R, K. split; discriminate.
  - intros _. repeat split; intros; intuition discriminate.
Qed.
Lemma stands_written cwd e cs : stands sci step cwd e cs -> well_written step e.
Proof. intros (l & F & _) c I. destruct (forall2_left _ _ _ F c I) as (b & B). exact (section_stands_written _ _ B). Qed.

(** The calls of a document are regular. *)
Definition read_call (c : bcall) : Prop := ordinary c /\ by_name c.
Lemma named_by_name k (x : cexpr string) : by_name (BConstraint k (named_leaves x)).
Proof.
  cbn. induction x as [o l IHl r IHr|o x IH|z|s]; cbn; intros y Y.
  - apply in_app_or in Y. destruct Y; auto.
  - auto.
  - destruct Y.
  - destruct Y as [<-|[]]. eauto.
Qed.
Lemma part_read n c : Forall read_call (part_calls n c).
Proof.
  unfold part_calls. repeat match goal with |- context[if ?b then _ else _] => destruct b end; try constructor; try (split; exact Logic.I); try constructor;
    apply Forall_forall; intros x I; apply in_map_iff in I; destruct I as (y & <- & _); (split; [exact Logic.I|]); cbn; try exact Logic.I; intros r R; intuition (subst; eauto).
Qed.
Lemma option_read num e l : option_stands sci step num e l -> Forall read_call l.
Proof.
  intros (rs & fs & _ & _ & ->). apply Forall_app. split.
  - apply Forall_forall. intros x I. apply in_flat_map in I. destruct I as (c & _ & I). pose proof (part_read (option_name e) c) as F. rewrite Forall_forall in F. exact (F x I).
  - constructor; [|constructor]. unfold option_call. destruct (_ || _); [split; exact Logic.I|]. split; [|exact Logic.I]. cbn. destruct num; discriminate.
Qed.
Lemma concat_read {A} (P : A -> list bcall -> Prop) es l : (forall e x, P e x -> Forall read_call x) -> Forall2 P es l -> Forall read_call (List.concat l).
Proof. intros N F. induction F as [|a x es l X F IH]; [constructor|]. cbn. apply Forall_app. split; [exact (N _ _ X)|exact IH]. Qed.
Lemma section_read e l : section_stands sci step e l -> Forall read_call l.
Proof.
  unfold section_stands. assert (Pl : forall k, Forall2 (plain_stands sci k) (elems e) l -> Forall read_call l).
  { intros k F. induction F as [|c b es l (x & _ & ->) F IH]; constructor; [split; [exact Logic.I|apply named_by_name]|exact IH]. }
  destruct (is_tag "binaryOptions" e); [intros (x & F & ->); exact (concat_read _ _ _ (option_read false) F)|].
  destruct (is_tag "numericOptions" e); [intros (x & F & ->); exact (concat_read _ _ _ (option_read true) F)|].
  destruct (is_tag "booleanConstraints" e); [apply Pl|]. destruct (is_tag "nonBooleanConstraints" e); [apply Pl|].
  destruct (is_tag "mixedConstraints" e); [|intros ->; constructor]. clear Pl.
  intros F. induction F as [|c b es l (x & r & k & _ & _ & _ & ->) F IH]; constructor; [split; [exact Logic.I|apply named_by_name]|exact IH].
Qed.
Lemma stands_regular cwd e cs : stands sci step cwd e cs -> regular cs.
Proof.
  intros S. assert (F : Forall read_call cs).
  { destruct S as (l & F & _ & ->). repeat (constructor; [split; exact Logic.I|]). exact (concat_read _ _ _ section_read F). }
  rewrite Forall_forall in F. constructor.
  - intros c I. exact (proj1 (F c I)).
  - intros c I. exact (proj2 (F c I)).
  - rewrite (plain_requests cs (stands_plain sci step cwd e cs S)). constructor.
Qed.
Lemma stands_not_misgrouped cwd e cs : stands sci step cwd e cs -> ~ misgrouped cs.
Proof.
  intros S (d & a & k & p & b & -> & _). pose proof (stands_plain sci step cwd e _ S) as F. rewrite Forall_forall in F. apply (F (BRelationship k p)). apply in_or_app. right. left. reflexivity.
Qed.

(** ** Outcomes *)
Variable ord : list nid -> list nid.
Hypothesis ord_ok : is_order ord.

Lemma null_exactly cwd h e cs : heap_ok h -> valid e = true -> stands sci step cwd e cs ->
  ((forall d, ~ acceptable cs d) <-> exists h', read_xml ord sci step cwd h e = SxDone (h', None)).
Proof.
  intros K V S. pose proof (stands_regular cwd e cs S) as R. assert (S' := S). apply (read_vm_iff sci step cwd e cs V) in S'. unfold read_xml. rewrite V, S'. cbn [sx_bind]. split.
  - intros N. destruct (otherwise_null ord ord_ok h cs K R N (stands_not_misgrouped cwd e cs S)) as (h' & ->). eauto.
  - intros (h' & E) d A. destruct (accepted_builds ord ord_ok h cs d K R A) as (h1 & m1 & Eb & _). rewrite Eb in E. destruct (detect ord h1 m1) as [[h2 m2]|]; discriminate.
Qed.

Lemma refused_exactly cwd h e : valid e = true -> well_written step e -> (read_xml ord sci step cwd h e = SxRefused <-> forall cs, ~ stands sci step cwd e cs).
Proof.
  intros V W. split.
  - intros E cs S. apply (read_vm_iff sci step cwd e cs V) in S. unfold read_xml in E. rewrite V, S in E. cbn [sx_bind] in E.
    destruct (build_calls ord h cs) as [[h1 [m1|]]|]; try discriminate. destruct (detect ord h1 m1) as [[h2 m2]|]; discriminate.
  - intros N. unfold read_xml. rewrite V. destruct (vm_calm cwd e V W) as [(cs & E)|E]; [|rewrite E; reflexivity]. exfalso. apply (N cs). apply (read_vm_iff sci step cwd e cs V). exact E.
Qed.

Lemma outcomes cwd h e : heap_ok h -> valid e = true -> well_written step e ->
  (forall cs d, stands sci step cwd e cs -> acceptable cs d -> rooted cs d) ->
  (read_xml ord sci step cwd h e = SxRefused /\ forall cs, ~ stands sci step cwd e cs) \/
  exists cs, stands sci step cwd e cs /\
    (((exists h', read_xml ord sci step cwd h e = SxDone (h', None)) /\ forall d, ~ acceptable cs d) \/
     exists d h' m', describes cs d /\ read_xml ord sci step cwd h e = SxDone (h', Some m') /\ tree_shaped h' m').
Proof.
  intros K V W Ro. destruct (vm_calm cwd e V W) as [(cs & E)|E].
  - right. exists cs. apply (read_vm_iff sci step cwd e cs V) in E. split; [exact E|]. pose proof (stands_regular cwd e cs E) as R.
    destruct (cases_cover cs R) as [(d & A)|[M|[N _]]].
    + right. assert (D : describes cs d) by (apply describes_split; [exact R|split; [exact A|exact (Ro cs d E A)]]).
      destruct (document_means ord sci step ord_ok cwd h e cs d K V E D) as (h' & m' & ps & X & _ & _ & _ & As & _). exists d, h', m'. split; [exact D|]. split; [exact X|exact (ad_tree _ _ _ _ As)].
    + exfalso. exact (stands_not_misgrouped cwd e cs E M).
    + left. split; [|exact N]. apply (null_exactly cwd h e cs K V E). exact N.
  - left. split; [unfold read_xml; rewrite V, E; reflexivity|]. intros cs S. apply (read_vm_iff sci step cwd e cs V) in S. congruence.
Qed.

Lemma ill_written cwd h e : ~ well_written step e -> forall r, read_xml ord sci step cwd h e <> SxDone r.
Proof. intros N r E. apply document_needed in E. destruct E as (_ & cs & S). exact (N (stands_written cwd e cs S)). Qed.
End Reader.
