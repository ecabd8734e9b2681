(** Proofs about the values of numeric options. *)
From Coq Require Import List ZArith NArith Arith Bool Ascii String Lia.
From Coq Require Import Floats.SpecFloat.
From Verif Require Import Text TextProofs LlvmInt NumSpec ConstraintModel ConstraintParserModel ConstraintSpec ConstraintLexerProofs StepFunctionModel StepFunctionSpec DoubleModel DoubleSpec DoubleStepProofs DoubleFinal DoubleSciProofs
  SourceRangeModel FeatureTreeModel FeatureTreeSpec FeatureTransactionModel FeatureEditSpec FeatureBuildSpec FeatureBuildFinal SxfmModel XmlModel XmlTextSpec XmlTextProofs XmlSpec SolverModel SolverSpec DescribedSpec DescribedFinal XmlRangeSpec.
Import ListNotations.
Local Open Scope string_scope.
Local Open Scope list_scope.
Local Open Scope Z_scope.

(** ** Numbers *)
Lemma digits_no_e d : forallb is_digit d = true -> contains_char "e" (lower d) = false.
Proof.
  intros D. rewrite (DoubleSciProofs.lower_digits d D). induction d as [|c d IH]; [reflexivity|]. cbn [forallb] in D. apply andb_true_iff in D. destruct D as [Dc D].
  unfold contains_char in *. cbn [existsb]. rewrite (IH D), orb_false_r, eqb_code. change (code "e") with 101%nat. unfold is_digit in Dc. lia.
Qed.
Lemma clamped_digits d : decimal d -> clamped d = Z.min int64_max (Z.of_N (dec_value 0 d)).
Proof.
  intros [N D]. unfold clamped. assert (negb (text_eqb d []) && forallb is_digit d = true) as E by (rewrite D; destruct d; [congruence|reflexivity]).
  destruct d as [|c d]; [congruence|]. rewrite E. destruct c as [[] [] [] [] [] [] [] []]; try reflexivity; discriminate D.
Qed.
Lemma clamped_minus d : decimal d -> clamped ("-"%char :: d) = Z.max int64_min (- Z.of_N (dec_value 0 d)).
Proof.
  intros [N D]. unfold clamped. assert (negb (text_eqb d []) && forallb is_digit d = true) as -> by (rewrite D; destruct d; [congruence|reflexivity]). reflexivity.
Qed.
Lemma numbered_parsed t z : numbered t z -> parse_integer sci_double t = z.
Proof.
  intros [d A|d A|u n q w S L Q A W].
  - unfold parse_integer. rewrite (digits_no_e d (proj2 A)), parse_plain_clamped. apply clamped_digits, A.
  - unfold parse_integer. change (lower ("-"%char :: d)) with ("-"%char :: lower d). assert (contains_char "e" ("-"%char :: lower d) = contains_char "e" (lower d)) as -> by reflexivity.
    rewrite (digits_no_e d (proj2 A)), parse_plain_clamped. apply clamped_minus, A.
  - rewrite <- (scientific_exact u n q w S Q A W).
    assert (exists c r, u = c :: r /\ is_digit c = true /\ Forall number_char r) as (c & r & -> & Dc & Fr).
    { clear - S. assert (H : forall a e b, decimal a -> e = "e"%char \/ e = "E"%char -> Forall number_char b -> exists c r, a ++ e :: b = c :: r /\ is_digit c = true /\ Forall number_char r).
      { intros a e b [Na Da] E Fb. destruct a as [|c a]; [congruence|]. cbn [forallb] in Da. apply andb_true_iff in Da. destruct Da as [Dc Da]. exists c, (a ++ e :: b). split; [reflexivity|]. split; [exact Dc|].
        apply Forall_app. split; [|constructor; [|exact Fb]].
        - apply Forall_forall. intros x I. apply forallb_forall with (x := x) in Da; [|exact I]. apply is_numchar_number. unfold is_numchar. rewrite Da. reflexivity.
        - apply is_numchar_number. destruct E as [-> | ->]; reflexivity. }
      assert (G : forall b, forallb is_digit b = true -> Forall number_char b).
      { intros b D. apply Forall_forall. intros x I. apply forallb_forall with (x := x) in D; [|exact I]. apply is_numchar_number. unfold is_numchar. rewrite D. reflexivity. }
      destruct S as [a e b A E B|a e b A E B|a e b A E B]; apply H; auto; constructor; auto; apply is_numchar_number; reflexivity. }
    rewrite <- (num_of_literal sci_double c r Dc Fr). unfold num_of. rewrite L. reflexivity.
Qed.

(** ** Step functions *)
Lemma steps_read pow o t z : steps_by o t z -> o <> SPow ->
  exists g, read_step (double_arith pow) double_value t = SxDone (Some g) /\ forall v, within v -> within (operation o v z) -> g v = Some (operation o v z).
Proof.
  intros (x & y & W & Z & [(N & I1)|(I1 & N)]) P.
  - apply (steps_name_first pow t x o y z W N I1 Z). intros E. contradiction.
  - destruct (steps_number_first pow t x o y z W I1 N Z) as (g & R & G); [intros E; contradiction|]. exists g. split; [exact R|].
    assert (forall v, operation o z v = operation o v z) as C by (intros v; destruct o; cbn [operation]; [lia|lia|congruence]).
    intros v Wv Wo. rewrite <- (C v) in *. apply G; [exact Wv|intros E; contradiction|exact Wo].
Qed.
Lemma sums g lo hi z : (forall v, within v -> within (v + z) -> g v = Some (v + z)) -> 0 < z -> within lo -> within (hi + z) ->
  (forall v, allowed_value (VRange lo hi) (Some g) v <-> exists j, 0 <= j /\ v = lo + j * z /\ v <= hi) /\ leaves_range (VRange lo hi) (Some g).
Proof.
  intros G P L H.
  assert (Inc : forall v, lo <= v -> v < v + z) by (intros v B; lia).
  assert (Nx : forall v, lo <= v <= hi -> g v = Some (v + z)) by (intros v B; apply G; unfold within in *; lia).
  destruct (allowed_increasing g (fun v => v + z) lo hi Inc Nx) as (A & V). split; [|exact V]. intros v. rewrite A. split.
  - intros (j & -> & Hj). rewrite iter_add in *. exists (Z.of_nat j). split; [lia|]. split; [reflexivity|exact Hj].
  - intros (j & Hj & -> & Hh). exists (Z.to_nat j). rewrite iter_add, Z2Nat.id by lia. split; [reflexivity|exact Hh].
Qed.
Lemma products g lo hi z : (forall v, within v -> within (v * z) -> g v = Some (v * z)) -> 1 < z -> 0 < lo -> within lo -> within (hi * z) ->
  (forall v, allowed_value (VRange lo hi) (Some g) v <-> exists j, 0 <= j /\ v = lo * z ^ j /\ v <= hi) /\ leaves_range (VRange lo hi) (Some g).
Proof.
  intros G P L0 L H.
  assert (Inc : forall v, lo <= v -> v < v * z) by (intros v B; nia).
  assert (Nx : forall v, lo <= v <= hi -> g v = Some (v * z)) by (intros v B; apply G; unfold within in *; nia).
  destruct (allowed_increasing g (fun v => v * z) lo hi Inc Nx) as (A & V). split; [|exact V]. intros v. rewrite A. split.
  - intros (j & -> & Hj). rewrite iter_mul in *. exists (Z.of_nat j). split; [lia|]. split; [reflexivity|exact Hj].
  - intros (j & Hj & -> & Hh). exists (Z.to_nat j). rewrite iter_mul, Z2Nat.id by lia. split; [reflexivity|exact Hh].
Qed.

(** ** Options *)
Section Doubles.
Variable pow : spec_float -> spec_float -> spec_float.
Notation step := (read_step (double_arith pow) double_value).
Lemma option_kind o rs fs P : takes o P -> Forall2 (fun c f => step (trimmed c) = SxDone f) (filled "stepFunction" (elems o)) fs -> option_name o <> T "root" -> option_name o <> T "base" ->
  exists f v st, option_call sci_double true o rs fs = BFeature f /\ f_name f = option_name o /\ f_kind f = FNumeric v st /\ (forall z, allowed_value v st z <-> P z) /\ leaves_range v st.
Proof.
  intros T0 F N1 N2. unfold option_call.
  assert (text_eqb (option_name o) (T "root") || text_eqb (option_name o) (T "base") = false) as ->.
  { apply orb_false_iff. split; apply not_true_iff_false; intros E; apply text_eqb_eq in E; contradiction. }
  cbv zeta. eexists. eexists. eexists. split; [reflexivity|]. cbn [f_name f_kind new_feature]. split; [reflexivity|]. split; [reflexivity|].
  destruct T0 as [c l zs Ec R Fz Nz|lo hi t z (a & b & c & Ev & Ea & Eb & Ec & Na & Nb & Et) S P L H|lo hi t z (a & b & c & Ev & Ea & Eb & Ec & Na & Nb & Et) S P L0 L H].
  - unfold option_values. rewrite Ec. cbn [flat_map]. rewrite app_nil_r. rewrite <- (proj2 (readings_unique (trimmed c)) l R).
    assert (map (parse_integer sci_double) l = zs) as ->. { clear - Fz. induction Fz as [|x y l l' H F IH]; [reflexivity|]. cbn [map]. rewrite (numbered_parsed x y H), IH. reflexivity. }
    destruct zs as [|z zs]; [congruence|]. cbn [allowed_value leaves_range]. split; [intros v; reflexivity|exact I].
  - unfold option_values. rewrite Ev, Ea, Eb. cbn [flat_map map last]. rewrite (numbered_parsed _ _ Na), (numbered_parsed _ _ Nb).
    rewrite Ec in F. inversion F as [|? f ? fs' Hf Fn]. subst. inversion Fn. subst. cbn [last].
    destruct (steps_read pow SAdd _ z S ltac:(discriminate)) as (g & R & G). rewrite R in Hf. injection Hf as <-. exact (sums g lo hi z G P L H).
  - unfold option_values. rewrite Ev, Ea, Eb. cbn [flat_map map last]. rewrite (numbered_parsed _ _ Na), (numbered_parsed _ _ Nb).
    rewrite Ec in F. inversion F as [|? f ? fs' Hf Fn]. subst. inversion Fn. subst. cbn [last].
    destruct (steps_read pow SMul _ z S ltac:(discriminate)) as (g & R & G). rewrite R in Hf. injection Hf as <-. exact (products g lo hi z G P L0 L H).
Qed.

(** ** Documents *)
Lemma is_tag_other a b c : is_tag a c = true -> T a <> T b -> is_tag b c = false.
Proof.
  intros E N. unfold is_tag in *. apply text_eqb_eq in E. apply not_true_iff_false. intros F. apply text_eqb_eq in F. congruence.
Qed.
Lemma forall2_in {A B} (R : A -> B -> Prop) l l' x : Forall2 R l l' -> In x l -> exists y, In y l' /\ R x y.
Proof. induction 1 as [|a b l l' H F IH]; intros []; [subst; exists b; split; [left; reflexivity|exact H]|]. destruct IH as (y & I1 & Ry); [assumption|]. exists y. split; [right; exact I1|exact Ry]. Qed.
Lemma forall2_in_r {A B} (R : A -> B -> Prop) l l' y : Forall2 R l l' -> In y l' -> exists x, In x l /\ R x y.
Proof. induction 1 as [|a b l l' H F IH]; intros []; [subst; exists a; split; [left; reflexivity|exact H]|]. destruct IH as (x & I1 & Ry); [assumption|]. exists x. split; [right; exact I1|exact Ry]. Qed.
Lemma option_in cwd e cs o : stands sci_double step cwd e cs -> numeric_option e o -> exists rs fs, In (option_call sci_double true o rs fs) cs /\
  Forall2 (fun c f => step (trimmed c) = SxDone f) (filled "stepFunction" (elems o)) fs.
Proof.
  intros (l & F & _ & ->) (c & Ic & Tc & Io & _). destruct (forall2_in _ _ _ c F Ic) as (k & Ik & Sk). unfold section_stands in Sk.
  rewrite (is_tag_other "numericOptions" "binaryOptions" c Tc ltac:(discriminate)), Tc in Sk. destruct Sk as (os & Fo & ->). destruct (forall2_in _ _ _ o Fo Io) as (x & Ix & (rs & fs & _ & Fs & Ex)).
  exists rs, fs. split; [|exact Fs]. right. right. right. apply in_concat. exists (List.concat os). split; [exact Ik|]. apply in_concat. exists x. split; [exact Ix|]. rewrite Ex. apply in_or_app. right. left. reflexivity.
Qed.
Lemma part_no_feature n c f : ~ In (BFeature f) (part_calls n c).
Proof.
  unfold part_calls. destruct (blank (content c)); [intros []|]. destruct (is_tag "parent" c); [intros [E|[]]; discriminate|].
  repeat match goal with |- context [if ?b then _ else _] => destruct b end; try (intros []; fail); rewrite in_map_iff; intros (x & E & _); discriminate.
Qed.
Lemma numeric_from cwd e cs f v st : stands sci_double step cwd e cs -> In (BFeature f) cs -> f_kind f = FNumeric v st ->
  exists o rs fs, numeric_option e o /\ BFeature f = option_call sci_double true o rs fs /\ Forall2 (fun c f => step (trimmed c) = SxDone f) (filled "stepFunction" (elems o)) fs.
Proof.
  intros (l & F & _ & ->) I1 K. destruct I1 as [E|[E|[E|I1]]]; try discriminate. apply in_concat in I1. destruct I1 as (k & Ik & If). destruct (forall2_in_r _ _ _ k F Ik) as (c & Ic & Sk). unfold section_stands in Sk.
  destruct (is_tag "binaryOptions" c).
  { destruct Sk as (os & Fo & ->). apply in_concat in If. destruct If as (x & Ix & If). destruct (forall2_in_r _ _ _ x Fo Ix) as (o & _ & (rs & fs & _ & _ & ->)). apply in_app_or in If. destruct If as [If|[If|[]]].
    - apply in_flat_map in If. destruct If as (p & _ & If). destruct (part_no_feature _ _ _ If).
    - unfold option_call in If. destruct (_ || _); [discriminate|]. injection If as <-. discriminate K. }
  destruct (is_tag "numericOptions" c) eqn:Tc.
  { destruct Sk as (os & Fo & ->). apply in_concat in If. destruct If as (x & Ix & If). destruct (forall2_in_r _ _ _ x Fo Ix) as (o & Io & (rs & fs & _ & Fs & ->)). apply in_app_or in If. destruct If as [If|[If|[]]].
    - apply in_flat_map in If. destruct If as (p & _ & If). destruct (part_no_feature _ _ _ If).
    - exists o, rs, fs. split; [|split; [symmetry; exact If|exact Fs]]. exists c. split; [exact Ic|]. split; [exact Tc|]. split; [exact Io|].
      unfold option_call in If. split; intros E; rewrite E in If; discriminate If. }
  assert (forall k0, ~ In (BFeature f) k -> ~ In (BFeature f) k0 -> True) as _ by auto.
  destruct (is_tag "booleanConstraints" c). { destruct (forall2_in_r _ _ _ _ Sk If) as (q & _ & (x & _ & E)). discriminate E. }
  destruct (is_tag "nonBooleanConstraints" c). { destruct (forall2_in_r _ _ _ _ Sk If) as (q & _ & (x & _ & E)). discriminate E. }
  destruct (is_tag "mixedConstraints" c). { destruct (forall2_in_r _ _ _ _ Sk If) as (q & _ & (x & r & k' & _ & _ & _ & E)). discriminate E. }
  subst k. destruct If.
Qed.
Lemma declared_in cs : forall d d' f, declares d cs d' -> In (BFeature f) cs \/ In f (snd d) -> In f (snd d').
Proof.
  intros d d' f H. induction H as [d|root fs g cs d N H IH|root fs cs d H IH|root fs s cs d N H IH|d c cs e K H IH]; intros I1.
  - destruct I1 as [[]|I1]; exact I1.
  - apply IH. cbn [snd] in *. destruct I1 as [[E|I1]|I1]; [right; injection E as ->; apply in_or_app; right; left; reflexivity|left; exact I1|right; apply in_or_app; left; exact I1].
  - apply IH. destruct I1 as [[E|I1]|I1]; [discriminate|left; exact I1|right; exact I1].
  - apply IH. destruct I1 as [[E|I1]|I1]; [discriminate|left; exact I1|right; exact I1].
  - apply IH. destruct I1 as [[E|I1]|I1]; [subst c; destruct K|left; exact I1|right; exact I1].
Qed.
Lemma declares_distinct cs : forall d d', declares d cs d' -> NoDup (fst d :: map f_name (snd d)) -> NoDup (fst d' :: map f_name (snd d')).
Proof.
  intros d d' H. induction H as [d|root fs g cs d N H IH|root fs cs d H IH|root fs s cs d N H IH|d c cs e K H IH]; intros Nd; auto; apply IH; cbn [fst snd] in *.
  - unfold taken in N. cbn [fst snd] in N. rewrite map_app. cbn [map]. apply NoDup_cons_iff in Nd. destruct Nd as [N1 N2]. apply NoDup_cons_iff. split.
    + rewrite in_app_iff. cbn [In]. intros [I1|[E|[]]]; [exact (N1 I1)|apply N; left; exact E].
    + apply NoDup_Add with (a := f_name g) (l := map f_name fs); [replace (map f_name fs) with (map f_name fs ++ []) at 1 by apply app_nil_r; apply Add_app|]. split; [exact N2|]. intros I1. apply N. right. exact I1.
  - apply NoDup_cons_iff in Nd. apply NoDup_cons_iff. split; [|exact (proj2 Nd)]. intros I1. apply N. right. exact I1.
Qed.
Lemma names_once cs d f g : describes cs d -> In g (snd d) -> In f (snd d) -> f_name g = f_name f -> g = f.
Proof.
  intros D Ig If E. assert (NoDup (map f_name (snd d))) as Nd.
  { assert (H : NoDup (fst d :: map f_name (snd d))); [|apply NoDup_cons_iff in H; exact (proj2 H)]. apply (declares_distinct cs _ _ (de_declares _ _ D)). cbn. constructor; [intros []|constructor]. }
  clear - Nd Ig If E. induction (snd d) as [|x l IH]; [destruct If|]. cbn [map] in Nd. apply NoDup_cons_iff in Nd. destruct Nd as [N1 N2]. destruct Ig as [->|Ig], If as [->|If]; auto.
  - exfalso. apply N1. rewrite E. apply in_map. exact If.
  - exfalso. apply N1. rewrite <- E. apply in_map. exact Ig.
Qed.

(** The same value for constraints that do not mention a name. *)
Lemma value_kept d mixed s z a e v : ~ In (Own s) (leaves e) -> has_value d mixed a e v -> has_value d mixed (with_number s z a) e v.
Proof.
  intros N H. induction H as [n|t v H|e b H IH|e b H IH|o l r x y v Hl IHl Hr IHr E|o l r x y v Hl IHl Hr IHr E]; cbn [leaves] in N.
  - apply hv_int.
  - apply hv_name. assert (t <> s) as Ne by (intros ->; apply N; left; reflexivity). assert (a_int a t = a_int (with_number s z a) t) as E.
    { cbn [with_number a_int]. destruct (text_eqb t s) eqn:E; [apply text_eqb_eq in E; contradiction|reflexivity]. }
    destruct H as [H|H M|H M]; [rewrite E; apply nv_number; exact H|apply (nv_counted d mixed (with_number s z a) t H M)|apply (nv_truth d mixed (with_number s z a) t H M)].
  - apply hv_not. auto.
  - apply hv_neg. auto.
  - eapply hv_truths; [apply IHl|apply IHr|exact E]; intros I1; apply N; apply in_or_app; auto.
  - eapply hv_numbers; [apply IHl|apply IHr|exact E]; intros I1; apply N; apply in_or_app; auto.
Qed.
Lemma number_free cs d G a s z : configures cs d G a -> unmentioned cs s -> (forall f v st, In f (snd d) -> f_name f = s -> f_kind f = FNumeric v st -> allowed_value v st z) ->
  configures cs d G (with_number s z a).
Proof.
  intros [A B C D E F H K] U V. assert (forall k e, In (k, e) (constraints_of cs) -> ~ In (Own s) (leaves e)) as U'.
  { intros k e I1. apply in_flat_map in I1. destruct I1 as (c & Ic & I1). destruct c; try (destruct I1; fail). destruct I1 as [I1|[]]. injection I1 as -> ->. exact (U k e Ic). }
  constructor; auto.
  - intros f v st I1 Kf. cbn [with_number a_int]. destruct (text_eqb (f_name f) s) eqn:Ef; [apply text_eqb_eq in Ef; exact (V f v st I1 Ef Kf)|exact (F f v st I1 Kf)].
  - intros k e I1 Kk. apply value_kept; [exact (U' k e I1)|exact (H k e I1 Kk)].
  - intros r k e I1. destruct (K r k e I1) as [L|R]; [left; apply value_kept; [exact (U' _ e I1)|exact L]|right; exact R].
Qed.

Lemma document_values ord (ord_ok : is_order ord) cwd h e cs d : heap_ok h -> XmlModel.valid e = true -> stands sci_double step cwd e cs -> describes cs d ->
  exists h' m', read_xml ord sci_double step cwd h e = SxDone (h', Some m') /\ forall o P, numeric_option e o -> takes o P ->
    (forall a, SolverSpec.valid h' m' a -> P (a_int a (option_name o))) /\
    (unmentioned cs (option_name o) -> forall a z, SolverSpec.valid h' m' a -> P z -> SolverSpec.valid h' m' (with_number (option_name o) z a)).
Proof.
  intros K V S D. destruct (read_valid ord sci_double step cwd h e cs d ord_ok K V S D) as (h' & m' & R & W). exists h', m'. split; [exact R|]. intros o P No To.
  destruct (option_in cwd e cs o S No) as (rs & fs & Ic & Fs). destruct No as (c & _ & _ & _ & N1 & N2).
  destruct (option_kind o rs fs P To Fs N1 N2) as (f & v & st & Ef & En & Ek & Al & _). rewrite Ef in Ic.
  pose proof (declared_in cs _ _ f (de_declares _ _ D) (or_introl Ic)) as If. split.
  - intros a Va. apply W in Va. apply Al. rewrite <- En. exact (co_values _ _ _ _ Va f v st If Ek).
  - intros U a z Va Pz. apply W in Va. apply W. apply number_free; [exact Va|exact U|]. intros g v' st' Ig Eg Kg.
    assert (g = f) as ->; [|rewrite Ek in Kg; injection Kg as <- <-; apply Al; exact Pz]. apply (names_once cs d); [exact D|exact Ig|exact If|congruence].
Qed.
Lemma document_ranges cwd e cs d : stands sci_double step cwd e cs -> describes cs d -> (forall o, numeric_option e o -> exists P, takes o P) ->
  forall f v st, In f (snd d) -> f_kind f = FNumeric v st -> leaves_range v st.
Proof.
  intros S D A f v st If Ek. destruct (declares_from cs _ _ f (de_declares _ _ D) If) as [[]|Ic]. destruct (numeric_from cwd e cs f v st S Ic Ek) as (o & rs & fs & No & Eo & Fs).
  destruct (A o No) as (P & To). destruct No as (c & _ & _ & _ & N1 & N2). destruct (option_kind o rs fs P To Fs N1 N2) as (g & v' & st' & Eg & _ & Kg & _ & Lr). rewrite <- Eo in Eg. injection Eg as <-. rewrite Ek in Kg. injection Kg as <- <-. exact Lr.
Qed.
Lemma feature_known cwd e cs f : stands sci_double step cwd e cs -> In (BFeature f) cs -> f_kind f <> FUnknown.
Proof.
  intros (l & F & _ & ->) I1. destruct I1 as [E|[E|[E|I1]]]; try discriminate. apply in_concat in I1. destruct I1 as (k & Ik & If). destruct (forall2_in_r _ _ _ k F Ik) as (c & Ic & Sk). unfold section_stands in Sk.
  assert (G : forall num o rs fs x, In (BFeature f) (flat_map (part_calls x) (elems o) ++ [option_call sci_double num o rs fs]) -> f_kind f <> FUnknown).
  { intros num o rs fs x J. apply in_app_or in J. destruct J as [J|[J|[]]].
    - apply in_flat_map in J. destruct J as (p & _ & J). destruct (part_no_feature _ _ _ J).
    - unfold option_call in J. destruct (_ || _); [discriminate|]. injection J as <-. destruct num; discriminate. }
  destruct (is_tag "binaryOptions" c).
  { destruct Sk as (os & Fo & ->). apply in_concat in If. destruct If as (x & Ix & If). destruct (forall2_in_r _ _ _ x Fo Ix) as (o & _ & (rs & fs & _ & _ & ->)). exact (G _ _ _ _ _ If). }
  destruct (is_tag "numericOptions" c).
  { destruct Sk as (os & Fo & ->). apply in_concat in If. destruct If as (x & Ix & If). destruct (forall2_in_r _ _ _ x Fo Ix) as (o & _ & (rs & fs & _ & _ & ->)). exact (G _ _ _ _ _ If). }
  destruct (is_tag "booleanConstraints" c). { destruct (forall2_in_r _ _ _ _ Sk If) as (q & _ & (x & _ & E)). discriminate E. }
  destruct (is_tag "nonBooleanConstraints" c). { destruct (forall2_in_r _ _ _ _ Sk If) as (q & _ & (x & _ & E)). discriminate E. }
  destruct (is_tag "mixedConstraints" c). { destruct (forall2_in_r _ _ _ _ Sk If) as (q & _ & (x & r & k' & _ & _ & _ & E)). discriminate E. }
  subst k. destruct If.
Qed.
Lemma document_enumerated ord ord' check cwd h e cs d : is_order ord -> is_order ord' -> heap_ok h -> XmlModel.valid e = true -> stands sci_double step cwd e cs -> describes cs d ->
  (forall o, numeric_option e o -> exists P, takes o P) -> plain cs d ->
  exists h' m', read_xml ord sci_double step cwd h e = SxDone (h', Some m') /\ exists N, forall fuel, (N <= fuel)%nat -> exists s, SolverModel.load ord' fuel h' m' = Some s /\
    (decides check (s_vars s) (s_asserted s) -> exists M, forall fuel', (M <= fuel')%nat -> answers d (configures cs d (found cs d)) (get_all check fuel' s)).
Proof.
  intros O O' K V S D A [P1 P2 P3 P4]. apply read_enumerated; auto. constructor; auto.
  - intros f If. destruct (declares_from cs _ _ f (de_declares _ _ D) If) as [[]|Ic]. exact (feature_known cwd e cs f S Ic).
  - intros s (_ & (f & g & B & _) & _). exists f. exact B.
  - exact (document_ranges cwd e cs d S D A).
Qed.
End Doubles.

(** ** Empty ranges *)
Lemma iterates_start g lo vs z : iterates g lo vs z -> In lo (vs ++ [z]).
Proof. induction 1 as [|vs v w I1 IH S]; [left; reflexivity|]. apply in_or_app. left. exact IH. Qed.
Lemma empty_range lo hi st z : hi < lo -> ~ allowed_value (VRange lo hi) st z.
Proof.
  intros L (g & vs & _ & I1 & F). apply iterates_start in I1. rewrite Forall_forall in F. specialize (F lo I1). lia.
Qed.
