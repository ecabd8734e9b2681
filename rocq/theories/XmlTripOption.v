(** The option written for a feature: it is valid and stands for the calls that make the
    feature again. *)
From Coq Require Import List ZArith NArith Arith Bool Ascii String Permutation Lia.
From Verif Require Import Text TextProofs NumSpec LlvmInt ConstraintModel ConstraintParserModel ConstraintSpec SourceRangeModel FeatureTreeModel FeatureTreeSpec FeatureTransactionModel
  FeatureTransactionSpec FeatureEditSpec FeatureTreeProofs FeatureOrderProofs FeatureEditProofs FeatureTransactionFinal FeatureDataProofs FeatureMergeResult FeatureBuildSpec SxfmModel XmlModel
  XmlWriterModel XmlSpec XmlDetectProofs XmlReadProofs XmlTripSpec XmlTripText XmlTripWrite.
Import ListNotations.
Local Open Scope string_scope.
Local Open Scope list_scope.
Local Open Scope nat_scope.

(** ** Shapes *)
Definition parent_elems (q : option text) : list xml := match q with Some s => [leaf_elem "parent" s] | None => [] end.
Definition range_elems (rs : list xml) : list xml := match rs with [] => [] | _ => [elem "locations" rs] end.
Definition flag (f : feature) : xml := leaf_elem "optional" (T (if f_optional f then "True" else "False")).
Definition option_doc (f : feature) (q : option text) (cn im ex : list text) (nu rs : list xml) : xml :=
  elem "configurationOption" ([leaf_elem "name" (f_name f)] ++ parent_elems q ++ names_elems "children" cn ++ names_elems "impliedOptions" im ++ names_elems "excludedOptions" ex ++
    [flag f] ++ nu ++ range_elems rs).

(** ** Source ranges *)
Lemma range_ok r : placed r -> exists e, write_range r = Some e /\ tag e = T "sourceRange" /\ valid e = true /\ ranged e (place_back r) /\ blank (content e) = false.
Proof.
  intros (Tp & a & b & Ea & Eb & (La & Ca) & (Lb & Cb)). unfold write_range. rewrite Ea, Eb. cbn [bind]. eexists. split; [reflexivity|]. split; [reflexivity|].
  split; [destruct (sr_category r); reflexivity|]. split.
  - assert (P : forall s l, (l_line l < 2 ^ 31)%N -> (l_column l < 2 ^ 31)%N -> position (write_location s l) l).
    { intros s l L C. destruct (atoi_print _ L) as (x & Ex & Ux). destruct (atoi_print _ C) as (y & Ey & Uy).
      eexists _, _, x, y. split; [reflexivity|]. cbn [content leaf_elem flat_map]. rewrite !app_nil_r. split; [exact Ex|]. split; [exact Ey|]. rewrite Ux, Uy. destruct l; reflexivity. }
    eexists _, _, _, a, b. split; [reflexivity|]. split; [reflexivity|]. split; [reflexivity|]. split; [apply P; assumption|]. split; [apply P; assumption|].
    unfold place_back. rewrite Ea, Eb. unfold trimmed. cbn [content leaf_elem flat_map]. rewrite app_nil_r. unfold tidy in Tp. rewrite Tp. destruct (sr_category r); reflexivity.
  - cbn [content flat_map write_location elem leaf_elem app]. rewrite !app_nil_r. unfold blank. rewrite !forallb_app. pose proof (blank_solid _ (print_N_solid (l_line a)) (print_N_nonempty (l_line a))) as X. unfold blank in X. rewrite X. cbn. apply andb_false_r.
Qed.
Lemma ranges_ok rs : Forall placed rs -> exists es, map_option write_range rs = Some es /\ (forall e, In e es -> tag e = T "sourceRange" /\ valid e = true /\ blank (content e) = false) /\ Forall2 ranged es (map place_back rs).
Proof.
  intros F. induction F as [|r rs P F IH]; [exists []; split; [reflexivity|]; split; [intros e []|constructor]|]. destruct (range_ok r P) as (e & E & Te & Ve & Re & Be). destruct IH as (es & Es & As & Fs).
  exists (e :: es). cbn [map_option map]. rewrite E. cbn [bind]. rewrite Es. split; [reflexivity|]. split; [intros x [<-|I]; auto|constructor; assumption].
Qed.

(** ** Kinds *)
Lemma kind_written (sci : text -> option text) k : writable_kind k -> exists nu, write_kind k = Some nu /\ forallb valid nu = true /\
  (nu = [] /\ (k = FBinary \/ k = FRoot) \/
   (exists lo hi st, k = FNumeric (VRange lo hi) st /\ nu = [leaf_elem "minValue" (print_Z lo); leaf_elem "maxValue" (print_Z hi)]) \/
   (exists vs st ws x, k = FNumeric (VList vs) st /\ nu = [leaf_elem "values" x] /\ solid x = true /\ x <> [] /\ map (parse_integer sci) (numerals false [] x) = ws /\ values_back vs ws)).
Proof.
  intros W. destruct k as [|v st| |]; cbn [write_kind writable_kind] in *.
  - exists []. split; [reflexivity|]. split; [reflexivity|]. left. auto.
  - destruct v as [lo hi|vs].
    + eexists. split; [reflexivity|]. split; [reflexivity|]. right. left. eauto 6.
    + destruct W as (N & F). destruct (write_values_ok sci vs N F) as (x & -> & Sx & Nx & ws & Ew & B). cbn [bind]. eexists. split; [reflexivity|]. split; [reflexivity|]. right. right. exists vs, st, ws, x. auto 8.
  - exists []. split; [reflexivity|]. split; [reflexivity|]. left. auto.
  - destruct W.
Qed.

(** ** Validity *)
Lemma names_valid s l : declaration_of (T s) = Some (Below (PMany "options")) -> attribute_declarations (T s) = [] -> forallb valid (names_elems s l) = true.
Proof.
  intros D A. destruct l as [|n l]; [reflexivity|]. unfold names_elems. cbn [forallb]. rewrite andb_true_r. unfold elem. set (es := map (leaf_elem "options") (n :: l)). cbn [valid]. rewrite D. unfold attributes_ok. cbn [tag attributes forallb].
  rewrite A. cbn [forallb andb]. rewrite andb_true_iff. split.
  - apply fits_matches. assert (map tag es = repeat (T "options") (S (List.length l))) as ->; [|apply mt_many]. subst es. cbn [map repeat]. f_equal. induction l as [|x l IH]; [reflexivity|]. cbn. f_equal. exact IH.
  - subst es. clear. induction (n :: l) as [|x r IH]; [reflexivity|exact IH].
Qed.
Lemma locations_ok rs : (forall e, In e rs -> tag e = T "sourceRange" /\ valid e = true) -> forallb valid (range_elems rs) = true.
Proof.
  intros A. destruct rs as [|r rs]; [reflexivity|]. unfold range_elems. cbn [forallb]. rewrite andb_true_r. unfold elem. set (es := r :: rs) in *. cbn [valid]. change (declaration_of (T "locations")) with (Some (Below (PMany "sourceRange"))).
  change (attributes_ok _) with true. cbn [forallb andb]. rewrite andb_true_iff. split.
  - apply fits_matches. assert (map tag es = repeat (T "sourceRange") (List.length es)) as ->; [|apply mt_many]. clearbody es. clear r rs. induction es as [|x es IH]; [reflexivity|]. cbn. f_equal; [apply A; left; reflexivity|apply IH; intros y I; apply A; right; exact I].
  - apply forallb_forall. intros x I. apply A. exact I.
Qed.
Definition one_of (s : string) (l : list text) : Prop := l = [] \/ l = [T s].
Lemma one_maybe s l : one_of s l -> matches (PMaybe (PTag s)) l.
Proof. intros [-> | ->]; [apply mt_none|apply mt_some, mt_tag]. Qed.
Lemma names_one s l : one_of s (map tag (names_elems s l)).
Proof. destruct l; [left|right]; reflexivity. Qed.
Lemma seq_skip p q l : matches q l -> matches (PSeq (PMaybe p) q) l.
Proof. intros M. exact (mt_seq (PMaybe p) q [] l (mt_none p) M). Qed.
Lemma option_valid f q cn im ex nu rs :
  (nu = [] \/ (exists a b, nu = [leaf_elem "minValue" a; leaf_elem "maxValue" b]) \/ exists a, nu = [leaf_elem "values" a]) -> (forall e, In e rs -> tag e = T "sourceRange" /\ valid e = true) ->
  valid (option_doc f q cn im ex nu rs) = true.
Proof.
  intros K A. unfold option_doc, elem. match goal with |- valid (Elem _ _ _ ?x) = true => set (es := x) end. cbn [valid]. change (attributes_ok _) with true. change (declaration_of (T "configurationOption")) with (Some (Below option_particle)). cbn [forallb andb].
  rewrite andb_true_iff. split.
  - apply fits_matches. subst es. rewrite !map_app. unfold option_particle. cbn [sequence]. 
    apply (mt_seq (PTag "name") _ [T "name"]); [apply mt_tag|]. do 3 apply seq_skip.
    apply mt_seq; [apply one_maybe; destruct q; [right|left]; reflexivity|].
    apply mt_seq; [apply one_maybe, names_one|]. apply mt_seq; [apply one_maybe, names_one|]. apply mt_seq; [apply one_maybe, names_one|]. apply seq_skip.
    apply (mt_seq _ _ [T "optional"]); [apply one_maybe; right; reflexivity|]. apply mt_seq.
    { destruct K as [->|[(a & b & ->)|(a & ->)]]; [apply mt_none|apply mt_some, mt_left|apply mt_some, mt_right, mt_tag]. apply (mt_seq (PTag "minValue") (PTag "maxValue") [_] [_]); apply mt_tag. }
    apply seq_skip. apply one_maybe. destruct rs; [left|right]; reflexivity.
  - subst es. rewrite !forallb_app, !andb_true_iff. split; [reflexivity|]. split; [destruct q; reflexivity|]. split; [apply names_valid; reflexivity|]. split; [apply names_valid; reflexivity|]. split; [apply names_valid; reflexivity|].
    split; [unfold flag; destruct (f_optional f); reflexivity|]. split; [|apply locations_ok; exact A].
    destruct K as [->|[(a & b & ->)|(a & ->)]]; reflexivity.
Qed.

(** ** What the parts stand for *)
Lemma filled_app s a b : filled s (a ++ b) = filled s a ++ filled s b.
Proof. apply filter_app. Qed.
Lemma filled_other s s' es : (forall c, In c es -> tag c = T s') -> text_eqb (T s') (T s) = false -> filled s es = [].
Proof.
  intros A N. induction es as [|c es IH]; [reflexivity|]. unfold filled in *. cbn [filter]. unfold is_tag at 1. rewrite (A c (or_introl eq_refl)), N. cbn [andb]. apply IH. intros x I. apply A. right. exact I.
Qed.
Lemma names_tag s l c : In c (names_elems s l) -> tag c = T s.
Proof. destruct l; [intros []|intros [<-|[]]; reflexivity]. Qed.
Lemma parent_tag q c : In c (parent_elems q) -> tag c = T "parent".
Proof. destruct q; [intros [<-|[]]; reflexivity|intros []]. Qed.
Lemma range_tag rs c : In c (range_elems rs) -> tag c = T "locations".
Proof. destruct rs; [intros []|intros [<-|[]]; reflexivity]. Qed.
Lemma leaf_content s x : content (leaf_elem s x) = x.
Proof. cbn. apply app_nil_r. Qed.

Definition pairs (o : binop) (n : text) (l : list text) : list bcall := map (fun x => BConstraint KBoolean (CBin o (CFeat (Own n)) (CFeat (Own x)))) l.
Definition good (s : text) : Prop := s <> [] /\ tidy s.
Lemma names_content s l : l <> [] -> Forall good l -> blank (content (elem s (map (leaf_elem "options") l))) = false.
Proof.
  intros N F. destruct F as [|x l (Nx & Tx) F]; [congruence|]. change (content (elem s (map (leaf_elem "options") (x :: l)))) with ((x ++ []) ++ flat_map content (map (leaf_elem "options") l)). rewrite app_nil_r. unfold blank. rewrite forallb_app. pose proof (tidy_nonblank x Tx Nx) as B. unfold blank in B. rewrite B. reflexivity.
Qed.
Lemma called_options l : called "options" (map (leaf_elem "options") l) = map (leaf_elem "options") l.
Proof. induction l as [|x l IH]; [reflexivity|]. unfold called in *. cbn [map filter]. change (is_tag "options" (leaf_elem "options" x)) with true. cbv iota. rewrite IH. reflexivity. Qed.

Lemma part_parent n q : match q with Some s => good s | None => True end -> flat_map (part_calls n) (parent_elems q) = match q with Some s => [BEdge s n] | None => [] end.
Proof.
  destruct q as [s|]; [|reflexivity]. intros (Ns & Ts). cbn [parent_elems flat_map]. unfold part_calls. rewrite leaf_content, (tidy_nonblank s Ts Ns). unfold trimmed. rewrite leaf_content, Ts. reflexivity.
Qed.
Lemma part_children n l : Forall good l -> flat_map (part_calls n) (names_elems "children" l) = map (BEdge n) l.
Proof.
  intros F. destruct l as [|x l]; [reflexivity|]. unfold names_elems. cbn [flat_map]. rewrite app_nil_r. unfold part_calls. rewrite names_content by (auto; discriminate).
  change (is_tag "parent" _) with false. change (is_tag "children" _) with true. cbv iota. unfold elem. cbn [elems]. rewrite called_options, map_map. apply map_ext. intros y. rewrite leaf_content. reflexivity.
Qed.
Lemma part_pairs n l s o : Forall good l -> (s = "excludedOptions" /\ o = BExcludes \/ s = "impliedOptions" /\ o = BImplies) -> flat_map (part_calls n) (names_elems s l) = pairs o n l.
Proof.
  intros F X. destruct l as [|x l]; [reflexivity|]. unfold names_elems. cbn [flat_map]. rewrite app_nil_r. unfold part_calls. rewrite names_content by (auto; discriminate).
  assert (E : forall o, map (fun d => BConstraint KBoolean (CBin o (CFeat (Own n)) (CFeat (Own (trimmed d))))) (map (leaf_elem "options") (x :: l)) = pairs o n (x :: l)).
  { intros o'. rewrite map_map. apply map_ext_in. intros y I. unfold trimmed. rewrite leaf_content. rewrite Forall_forall in F. destruct (F y I) as (_ & Ty). rewrite Ty. reflexivity. }
  destruct X as [(-> & ->)|(-> & ->)]; unfold elem; cbn [is_tag tag elems]; tags; cbv iota; rewrite called_options; apply E.
Qed.
Lemma part_none n c : text_eqb (tag c) (T "parent") = false -> text_eqb (tag c) (T "children") = false -> text_eqb (tag c) (T "excludedOptions") = false -> text_eqb (tag c) (T "impliedOptions") = false -> part_calls n c = [].
Proof. intros A B C D. unfold part_calls, is_tag. rewrite A, B, C, D. destruct (blank (content c)); reflexivity. Qed.

Section Option.
Variables (sci : text -> option text) (step : text -> sx (option (Z -> option Z))).
Definition num_kind (k : fkind) : bool := match k with FNumeric _ _ => true | _ => false end.

Lemma option_meaning f q cn im ex nu rs :
  writable_feature f -> match q with Some s => good s | None => True end -> Forall good cn -> Forall good im -> Forall good ex ->
  write_kind (f_kind f) = Some nu -> map_option write_range (f_locations f) = Some rs ->
  valid (option_doc f q cn im ex nu rs) = true /\
  exists c, option_stands sci step (num_kind (f_kind f)) (option_doc f q cn im ex nu rs)
    (match q with Some s => [BEdge s (f_name f)] | None => [] end ++ map (BEdge (f_name f)) cn ++ pairs BImplies (f_name f) im ++ pairs BExcludes (f_name f) ex ++ [c]) /\
  (f_name f = T "root" \/ f_name f = T "base" -> c = BRoot (f_name f)) /\
  (f_name f <> T "root" -> f_name f <> T "base" -> f_kind f <> FRoot -> exists g, c = BFeature g /\ back f g /\ f_kind g <> FRoot).
Proof.
  intros (Nn & Tn & Wk & Pl) Gq Gc Gi Ge Ek Er. destruct (kind_written sci _ Wk) as (nu' & Ek' & Vn & K). rewrite Ek in Ek'. injection Ek' as <-.
  destruct (ranges_ok _ Pl) as (rs' & Er' & Ar & Fr). rewrite Er in Er'. injection Er' as <-.
  split.
  { apply option_valid; [|intros e I; split; apply (Ar e I)]. destruct K as [(-> & _)|[(lo & hi & st & _ & ->)|(vs & st & ws & x & _ & -> & _)]]; eauto. }
  set (n := f_name f) in *. set (e := option_doc f q cn im ex nu rs).
  assert (Nu : forall s, text_eqb (T "minValue") (T s) = false -> text_eqb (T "maxValue") (T s) = false -> text_eqb (T "values") (T s) = false -> filled s nu = []).
  { intros s A B C. destruct K as [(-> & _)|[(lo & hi & st & _ & ->)|(vs & st & ws & x & _ & -> & _)]]; unfold filled, is_tag; cbn [filter tag leaf_elem]; rewrite ?A, ?B, ?C; reflexivity. }
  assert (Fs : forall s, filled s (elems e) = filled s [leaf_elem "name" n] ++ filled s (parent_elems q) ++ filled s (names_elems "children" cn) ++ filled s (names_elems "impliedOptions" im) ++ filled s (names_elems "excludedOptions" ex) ++
    filled s [flag f] ++ filled s nu ++ filled s (range_elems rs)) by (intros s; unfold e, option_doc, elem; cbn [elems]; rewrite !filled_app; reflexivity).
  assert (Pa := parent_tag q). assert (Ch := names_tag "children" cn). assert (Im := names_tag "impliedOptions" im). assert (Ex := names_tag "excludedOptions" ex). assert (Rt := range_tag rs).
  assert (Nt : forall c, In c [leaf_elem "name" n] -> tag c = T "name") by (intros c [<-|[]]; reflexivity). assert (Ft : forall c, In c [flag f] -> tag c = T "optional") by (intros c [<-|[]]; reflexivity).
  assert (Bn : blank n = false) by (apply tidy_nonblank; assumption).
  assert (F1 : filled "name" (elems e) = [leaf_elem "name" n]).
  { rewrite Fs, (filled_other "name" _ _ Pa), (filled_other "name" _ _ Ch), (filled_other "name" _ _ Im), (filled_other "name" _ _ Ex), (filled_other "name" _ _ Rt), (filled_other "name" _ _ Ft), Nu by reflexivity.
    unfold filled. cbn [filter]. rewrite leaf_content, Bn. reflexivity. }
  assert (F2 : filled "optional" (elems e) = [flag f]).
  { rewrite Fs, (filled_other "optional" _ _ Pa), (filled_other "optional" _ _ Ch), (filled_other "optional" _ _ Im), (filled_other "optional" _ _ Ex), (filled_other "optional" _ _ Rt), (filled_other "optional" _ _ Nt), Nu by reflexivity.
    unfold filled, flag. cbn [filter]. rewrite leaf_content. destruct (f_optional f); reflexivity. }
  assert (F3 : filled "outputString" (elems e) = []).
  { rewrite Fs, (filled_other "outputString" _ _ Pa), (filled_other "outputString" _ _ Ch), (filled_other "outputString" _ _ Im), (filled_other "outputString" _ _ Ex), (filled_other "outputString" _ _ Rt), (filled_other "outputString" _ _ Nt), (filled_other "outputString" _ _ Ft), Nu by reflexivity. reflexivity. }
  assert (F4 : filled "stepFunction" (elems e) = []).
  { rewrite Fs, (filled_other "stepFunction" _ _ Pa), (filled_other "stepFunction" _ _ Ch), (filled_other "stepFunction" _ _ Im), (filled_other "stepFunction" _ _ Ex), (filled_other "stepFunction" _ _ Rt), (filled_other "stepFunction" _ _ Nt), (filled_other "stepFunction" _ _ Ft), Nu by reflexivity. reflexivity. }
  assert (F5 : filled "locations" (elems e) = range_elems rs).
  { rewrite Fs, (filled_other "locations" _ _ Pa), (filled_other "locations" _ _ Ch), (filled_other "locations" _ _ Im), (filled_other "locations" _ _ Ex), (filled_other "locations" _ _ Nt), (filled_other "locations" _ _ Ft), Nu by reflexivity.
    cbn [app]. destruct rs as [|r rs]; [reflexivity|]. unfold range_elems, filled. cbn [filter]. change (is_tag "locations" _) with true. change (content (elem "locations" (r :: rs))) with (content r ++ flat_map content rs).
    unfold blank. rewrite forallb_app. pose proof (proj2 (proj2 (Ar r (or_introl eq_refl)))) as Br. unfold blank in Br. rewrite Br. reflexivity. }
  assert (F6 : forall s, s = "minValue" \/ s = "maxValue" \/ s = "values" -> filled s (elems e) = filled s nu).
  { intros s Hs. assert (forall s', In s' ["name"; "parent"; "children"; "impliedOptions"; "excludedOptions"; "optional"; "locations"] -> text_eqb (T s') (T s) = false) as Ne.
    { intros s' I. destruct Hs as [->|[-> | ->]]; repeat (destruct I as [<-|I]; [reflexivity|]); destruct I. }
    rewrite Fs, (filled_other s _ _ Pa), (filled_other s _ _ Ch), (filled_other s _ _ Im), (filled_other s _ _ Ex), (filled_other s _ _ Nt), (filled_other s _ _ Ft), (filled_other s _ _ Rt) by (apply Ne; cbn; tauto).
    cbn [app]. rewrite app_nil_r. reflexivity. }
  assert (On : option_name e = n) by (unfold option_name; rewrite F1; cbn [map last]; unfold trimmed; rewrite leaf_content; exact Tn).
  assert (Pc : flat_map (part_calls n) (elems e) = match q with Some s => [BEdge s n] | None => [] end ++ map (BEdge n) cn ++ pairs BImplies n im ++ pairs BExcludes n ex).
  { unfold e, option_doc, elem. cbn [elems]. rewrite !flat_map_app. rewrite (part_parent n q Gq), (part_children n cn Gc), (part_pairs n im "impliedOptions" BImplies Gi), (part_pairs n ex "excludedOptions" BExcludes Ge) by auto.
    cbn [flat_map]. rewrite (part_none n (leaf_elem "name" (f_name f))), (part_none n (flag f)) by reflexivity.
    assert (flat_map (part_calls n) nu = []) as ->.
    { destruct K as [(-> & _)|[(lo & hi & st & _ & ->)|(vs & st & ws & x & _ & -> & _)]]; cbn [flat_map]; rewrite ?part_none by reflexivity; reflexivity. }
    assert (flat_map (part_calls n) (range_elems rs) = []) as ->.
    { destruct rs; [reflexivity|]. unfold range_elems. cbn [flat_map]. rewrite part_none by reflexivity. reflexivity. }
    rewrite !app_nil_r. reflexivity. }
  assert (So : flat_map (fun c => called "sourceRange" (elems c)) (range_elems rs) = rs).
  { assert (called "sourceRange" rs = rs) as X.
    { assert (Ar' : forall x, In x rs -> tag x = T "sourceRange") by (intros x I; apply (Ar x I)). clear -Ar'. induction rs as [|x rs IH]; [reflexivity|]. unfold called in *. cbn [filter]. unfold is_tag at 1. rewrite (Ar' x (or_introl eq_refl)). tags. cbv iota. f_equal. apply IH. intros y I. apply Ar'. right. exact I. }
    destruct rs; [reflexivity|]. unfold range_elems, elem. cbn [flat_map elems]. rewrite app_nil_r. exact X. }
  exists (option_call sci (num_kind (f_kind f)) e (map place_back (f_locations f)) []). split; [|split].
  - exists (map place_back (f_locations f)), []. split; [rewrite F5, So; exact Fr|]. split; [rewrite F4; destruct (num_kind _); constructor|]. rewrite On, Pc, <- !app_assoc. reflexivity.
  - intros Rn. unfold option_call. rewrite On. destruct Rn as [->| ->]; reflexivity.
  - intros N1 N2 Nk. unfold option_call. rewrite On. apply text_eqb_neq in N1, N2. rewrite N1, N2. cbn [orb]. rewrite F2, F3. eexists. split; [reflexivity|].
    assert (Op : last (map (fun c => text_eqb (trimmed c) (T "True")) [flag f]) false = f_optional f) by (unfold flag; cbn [map last]; unfold trimmed; rewrite leaf_content; destruct (f_optional f); reflexivity).
    rewrite Op. cbn [map last].
    assert (Va : option_values sci (elems e) = flat_map (fun c => map (parse_integer sci) (numerals false [] (trimmed c))) (filled "values" nu)) by (unfold option_values; rewrite F6 by auto; reflexivity).
    rewrite Va, !F6 by auto. unfold back. cbn [new_feature f_name f_output f_kind f_locations f_optional].
    destruct K as [(-> & [E|E])|[(lo & hi & st & E & ->)|(vs & st & ws & x & E & -> & Sx & Nx & Ew & B)]]; rewrite E in *; cbn [num_kind].
    + split; [|discriminate]. split; [reflexivity|]. split; [reflexivity|]. split; [reflexivity|]. auto.
    + congruence.
    + split; [|discriminate]. split; [reflexivity|]. split; [reflexivity|]. split; [|auto]. cbn [kind_back writable_kind] in *.
      unfold filled. cbn [filter]. rewrite !leaf_content. rewrite (blank_solid _ (print_Z_solid lo) (print_Z_nonempty lo)), (blank_solid _ (print_Z_solid hi) (print_Z_nonempty hi)).
      unfold is_tag. cbn [tag leaf_elem]. tags. cbn [andb negb flat_map map last]. unfold trimmed. rewrite !leaf_content, !trim_solid by apply print_Z_solid. rewrite !parse_integer_Z by tauto. reflexivity.
    + split; [|discriminate]. split; [reflexivity|]. split; [reflexivity|]. split; [|auto]. cbn [kind_back].
      unfold filled. cbn [filter]. rewrite leaf_content, (blank_solid _ Sx Nx). unfold is_tag. cbn [tag leaf_elem]. tags. cbn [andb negb flat_map]. unfold trimmed. rewrite leaf_content, (trim_solid x Sx), app_nil_r, Ew.
      exists ws. split; [|exact B]. destruct ws as [|w ws]; [|reflexivity]. exfalso. destruct B as (a & b & v & _ & X & _). destruct b; discriminate.
Qed.
End Option.
