(** A document with numeric options of each kind. *)
From Coq Require Import List ZArith NArith Arith Bool Ascii String Permutation Lia.
From Coq Require Import Floats.SpecFloat.
From Verif Require Import Text TextProofs LlvmInt NumSpec ConstraintModel ConstraintParserModel ConstraintSpec SourceRangeModel StepFunctionModel StepFunctionSpec DoubleModel DoubleSpec FeatureTreeModel FeatureTreeSpec FeatureTransactionModel
  FeatureEditSpec FeatureTransactionExamples FeatureBuildSpec FeatureBuildExamples SxfmModel SxfmExamples XmlModel XmlWriterModel XmlTextSpec XmlTextProofs XmlSpec XmlReadProofs XmlFinal XmlExamples ConfigurationModel SolverModel SolverSpec SolverExamples DescribedSpec DescribedFinal DoubleFinal XmlRangeSpec XmlRangeProofs.
Import ListNotations.
Local Open Scope string_scope.
Local Open Scope list_scope.

(** The root with n in -10, 10, 30, with g in 2, 6, 18, 54, and with l in 1, -2, 3. *)
Definition number_option (s : string) (es : list xml) : xml :=
  opt ([leaf_elem "name" (T s); leaf_elem "outputString" (T s); leaf_elem "parent" (T "root"); leaf_elem "optional" (T "False")] ++ es).
Definition option_n : xml := number_option "n" [leaf_elem "minValue" (T "-10"); leaf_elem "maxValue" (T "45"); leaf_elem "stepFunction" (T "n + 20")].
Definition option_g : xml := number_option "g" [leaf_elem "minValue" (T "2"); leaf_elem "maxValue" (T "1e2"); leaf_elem "stepFunction" (T "3.0 * g")].
Definition option_l : xml := number_option "l" [leaf_elem "values" (T "1; -2;3")].
Definition doc71 : xml := Elem (T "vm") [(T "name", T "m")] []
  [elem "binaryOptions" [opt [leaf_elem "name" (T "root")]];
   elem "numericOptions" [option_n; option_g; option_l];
   elem "nonBooleanConstraints" [leaf_elem "constraint" (T "l <= g")]].
Definition step71 : text -> sx (option (Z -> option Z)) := read_step (double_arith exact_pow) double_value.
Definition step_of (s : string) : option (Z -> option Z) := match step71 (T s) with SxDone g => g | _ => None end.
Definition n71 : feature := new_feature (FNumeric (VRange (-10) 45) (step_of "n + 20")) (T "n") false [] (T "n").
Definition g71 : feature := new_feature (FNumeric (VRange 2 100) (step_of "3.0 * g")) (T "g") false [] (T "g").
Definition l71 : feature := new_feature (FNumeric (VList [1; -2; 3]%Z) None) (T "l") false [] (T "l").
Definition calls71 : list bcall :=
  [BName (T "m"); BPath (T "/tmp"); BCommit []; BRoot (T "root"); BEdge (T "root") (T "n"); BFeature n71; BEdge (T "root") (T "g"); BFeature g71; BEdge (T "root") (T "l"); BFeature l71;
   BConstraint KNonBoolean (CBin BLessEqual (CFeat (Own (T "l"))) (CFeat (Own (T "g"))))].
Definition decl71 : decl := (T "root", [n71; g71; l71]).
Lemma valid71 : XmlModel.valid doc71 = true.
Proof. vm_compute. reflexivity. Qed.
Lemma options71 : numeric_option doc71 option_n /\ numeric_option doc71 option_g /\ numeric_option doc71 option_l.
Proof.
  assert (H : forall o, In o [option_n; option_g; option_l] -> option_name o <> T "root" -> option_name o <> T "base" -> numeric_option doc71 o).
  { intros o I1 A B. exists (elem "numericOptions" [option_n; option_g; option_l]). split; [right; left; reflexivity|]. split; [reflexivity|]. split; [exact I1|]. split; assumption. }
  split; [|split]; apply H; try (cbn; tauto); vm_compute; discriminate.
Qed.
Lemma decimal_ok d : negb (text_eqb d []) && forallb is_digit d = true -> decimal d.
Proof. intros E. apply andb_true_iff in E. destruct E as [A B]. split; [|exact B]. intros ->. discriminate A. Qed.
Lemma one_blank : blanks (T " ").
Proof. constructor; [left; reflexivity|constructor]. Qed.
Lemma steps_n : steps_by SAdd (T "n + 20") 20.
Proof.
  exists (T "n"), (T "20"). split; [|split; [split; reflexivity|left; split]].
  - exists [], (T " "), (T " "), [], []. split; [reflexivity|]. split; [constructor|]. split; [exact one_blank|]. split; [exact one_blank|]. split; [constructor|left; reflexivity].
  - exists "n"%char, []. split; [reflexivity|]. split; [reflexivity|constructor].
  - exists (T "20"), []. split; [left; split; reflexivity|]. split; [discriminate|]. split; reflexivity.
Qed.
Lemma steps_g : steps_by SMul (T "3.0 * g") 3.
Proof.
  exists (T "3.0"), (T "g"). split; [|split; [split; reflexivity|right; split]].
  - exists [], (T " "), (T " "), [], []. split; [reflexivity|]. split; [constructor|]. split; [exact one_blank|]. split; [exact one_blank|]. split; [constructor|left; reflexivity].
  - exists (T "3"), (T "0"). split; [right; reflexivity|]. split; [discriminate|]. split; reflexivity.
  - exists "g"%char, []. split; [reflexivity|]. split; [reflexivity|constructor].
Qed.
Lemma takes_n : takes option_n (fun v => exists j, 0 <= j /\ v = -10 + j * 20 /\ v <= 45)%Z.
Proof.
  apply (takes_sums option_n (-10) 45 (T "n + 20") 20).
  - exists (leaf_elem "minValue" (T "-10")), (leaf_elem "maxValue" (T "45")), (leaf_elem "stepFunction" (T "n + 20")). do 4 (split; [reflexivity|]). split; [|split; [|reflexivity]].
    + apply (nu_minus (T "10")). apply decimal_ok. reflexivity.
    + apply (nu_plain (T "45")). apply decimal_ok. reflexivity.
  - exact steps_n.
  - reflexivity.
  - split; reflexivity.
  - split; reflexivity.
Qed.
Lemma takes_g : takes option_g (fun v => exists j, 0 <= j /\ v = 2 * 3 ^ j /\ v <= 100)%Z.
Proof.
  apply (takes_products option_g 2 100 (T "3.0 * g") 3); try reflexivity; try (split; reflexivity).
  - exists (leaf_elem "minValue" (T "2")), (leaf_elem "maxValue" (T "1e2")), (leaf_elem "stepFunction" (T "3.0 * g")). do 4 (split; [reflexivity|]). split; [|split; [|reflexivity]].
    + apply (nu_plain (T "2")). apply decimal_ok. reflexivity.
    + apply (nu_exponent (T "1e2") 1 2 100); try reflexivity; [|split; reflexivity]. apply (sc_plain (T "1") "e" (T "2")); [apply decimal_ok; reflexivity|left; reflexivity|reflexivity].
  - exact steps_g.
Qed.
Lemma takes_l : takes option_l (fun v => In v [1; -2; 3]%Z).
Proof.
  apply (takes_listed option_l (leaf_elem "values" (T "1; -2;3")) [T "1"; T "-2"; T "3"]); [reflexivity| | |discriminate].
  - change [T "1"; T "-2"; T "3"] with (numerals false [] (trimmed (leaf_elem "values" (T "1; -2;3")))). apply (texts_read (trimmed (leaf_elem "values" (T "1; -2;3")))).
  - constructor; [apply (nu_plain (T "1")); apply decimal_ok; reflexivity|]. constructor; [apply (nu_minus (T "2")); apply decimal_ok; reflexivity|]. constructor; [apply (nu_plain (T "3")); apply decimal_ok; reflexivity|constructor].
Qed.
Lemma step_read s o z : steps_by o (T s) z -> o <> SPow -> step71 (T s) = SxDone (step_of s).
Proof. intros S N. destruct (steps_read exact_pow o (T s) z S N) as (g & R & _). unfold step_of, step71. rewrite R. reflexivity. Qed.
Lemma binary_stands o cs : option_stands sci_double step71 false o cs <-> exists rs, Forall2 ranged (flat_map (fun c => called "sourceRange" (elems c)) (filled "locations" (elems o))) rs /\ cs = flat_map (part_calls (option_name o)) (elems o) ++ [option_call sci_double false o rs []].
Proof.
  split.
  - intros (rs & fs & A & B & ->). inversion B. subst. exists rs. auto.
  - intros (rs & A & ->). exists rs, []. split; [exact A|]. split; [constructor|reflexivity].
Qed.
Lemma numeric_stands o fs cs : flat_map (fun c => called "sourceRange" (elems c)) (filled "locations" (elems o)) = [] -> Forall2 (fun c f => step71 (trimmed c) = SxDone f) (filled "stepFunction" (elems o)) fs ->
  cs = flat_map (part_calls (option_name o)) (elems o) ++ [option_call sci_double true o [] fs] -> option_stands sci_double step71 true o cs.
Proof. intros E F ->. exists [], fs. rewrite E. split; [constructor|]. split; [exact F|reflexivity]. Qed.
Opaque step_of step71.
Lemma stands71 : stands sci_double step71 (T "/tmp") doc71 calls71.
Proof.
  exists [[BRoot (T "root")]; [BEdge (T "root") (T "n"); BFeature n71; BEdge (T "root") (T "g"); BFeature g71; BEdge (T "root") (T "l"); BFeature l71];
    [BConstraint KNonBoolean (CBin BLessEqual (CFeat (Own (T "l"))) (CFeat (Own (T "g"))))]].
  split; [|split; [|reflexivity]].
  - constructor; [|constructor; [|constructor; [|constructor]]].
    + exists [[BRoot (T "root")]]. split; [|reflexivity]. constructor; [|constructor]. apply binary_stands. exists []. split; [constructor|vm_compute; reflexivity].
    + exists [[BEdge (T "root") (T "n"); BFeature n71]; [BEdge (T "root") (T "g"); BFeature g71]; [BEdge (T "root") (T "l"); BFeature l71]]. split; [|reflexivity].
      constructor; [|constructor; [|constructor; [|constructor]]].
      * apply (numeric_stands _ [step_of "n + 20"]); [reflexivity| |].
        -- constructor; [|constructor]. exact (step_read "n + 20" SAdd 20 steps_n ltac:(discriminate)).
        -- lazy - [n71 step_of]. reflexivity.
      * apply (numeric_stands _ [step_of "3.0 * g"]); [reflexivity| |].
        -- constructor; [|constructor]. exact (step_read "3.0 * g" SMul 3 steps_g ltac:(discriminate)).
        -- assert (option_call sci_double true option_g [] [step_of "3.0 * g"] = BFeature g71) as E.
           { unfold option_call. assert (parse_integer sci_double (T "1e2") = 100%Z) as Eh by (vm_compute; reflexivity). cbn - [parse_integer sci_double step_of]. change (trimmed (leaf_elem "maxValue" (T "1e2"))) with (T "1e2"). reflexivity. }
           rewrite E. reflexivity.
      * apply (numeric_stands _ []); [reflexivity|constructor|vm_compute; reflexivity].
    + constructor; [|constructor]. exists (CBin BLessEqual (CFeat "l") (CFeat "g")). split; vm_compute; reflexivity.
  - intros p q t A B. repeat (destruct A as [A|A]; [first [discriminate A|injection A as <- <-; repeat (destruct B as [B|B]; [first [discriminate B|injection B as <-; reflexivity|injection B; intros; discriminate]|]); destruct B]|]). destruct A.
Qed.
Lemma describes71 : describes calls71 decl71.
Proof.
  constructor.
  - unfold calls71. do 3 (apply dec_other; [exact I|]). apply dec_same. repeat (first [apply dec_feature; [cbv [taken fst snd map f_name new_feature n71 g71 l71]; vm_compute; intuition congruence|]|apply dec_other; [exact I|]]). apply dec_nil.
  - intros c X. repeat (destruct X as [<-|X]; [first [exact I|discriminate]|]). destruct X.
  - intros c X. repeat (destruct X as [<-|X]; [first [exact I|vm_compute; intuition congruence]|]). destruct X.
  - intros p s X. repeat (destruct X as [E|X]; [first [discriminate E|injection E as <- <-; vm_compute; discriminate]|]). destruct X.
  - intros f X. destruct X as [<-|[<-|[<-|[]]]]; apply leads_up; change (leads (fun s => last_edge calls71 s (fst decl71)) (fst decl71) (fst decl71)); apply leads_root.
  - intros c X. repeat (destruct X as [<-|X]; [first [exact I|intros r Y; cbn in Y; repeat (destruct Y as [<-|Y]; [eexists; (split; [reflexivity|vm_compute; tauto])|]); destruct Y]|]). destruct X.
  - constructor.
Qed.
Lemma all_take71 : forall o, numeric_option doc71 o -> exists P, takes o P.
Proof.
  intros o (c & Ic & Tc & Io & _). destruct Ic as [<-|[<-|[<-|[]]]]; try discriminate Tc. destruct Io as [<-|[<-|[<-|[]]]]; eexists; [exact takes_n|exact takes_g|exact takes_l].
Qed.
Lemma range_example :
  heap_ok heap0 /\ XmlModel.valid doc71 = true /\ stands sci_double step71 (T "/tmp") doc71 calls71 /\ describes calls71 decl71 /\
  numeric_option doc71 option_n /\ takes option_n (fun v => exists j, 0 <= j /\ v = -10 + j * 20 /\ v <= 45)%Z /\ unmentioned calls71 (T "n") /\
  numeric_option doc71 option_g /\ takes option_g (fun v => exists j, 0 <= j /\ v = 2 * 3 ^ j /\ v <= 100)%Z /\
  numeric_option doc71 option_l /\ takes option_l (fun v => In v [1; -2; 3]%Z) /\ forall o, numeric_option doc71 o -> exists P, takes o P.
Proof.
  destruct options71 as (A & B & C). do 4 (split; [first [exact heap0_ok|exact valid71|exact stands71|exact describes71]|]). split; [exact A|]. split; [exact takes_n|]. split.
  { intros k e X. repeat (destruct X as [X|X]; [first [discriminate X|injection X as <- <-; intros [E|[E|[]]]; discriminate E]|]). destruct X. }
  split; [exact B|]. split; [exact takes_g|]. split; [exact C|]. split; [exact takes_l|exact all_take71].
Qed.
Lemma plain71 : plain calls71 decl71.
Proof.
  assert (Ng : numeric_name decl71 (T "g")) by (exists g71; split; [right; left; reflexivity|split; reflexivity]).
  assert (Nl : numeric_name decl71 (T "l")) by (exists l71; split; [right; right; left; reflexivity|split; reflexivity]).
  constructor.
  - intros f [<-|[<-|[<-|[]]]] K; discriminate K.
  - intros k e a [E|[]] _. injection E as <- <-. eexists. eapply hv_numbers; [apply hv_name, nv_number; exact Nl|apply hv_name, nv_number; exact Ng|reflexivity].
  - intros r k e a [E|[]]. discriminate E.
  - intros k e [E|[]]. injection E as <- <-. cbn. repeat split. discriminate.
Qed.

(** Bounds and values with decimal places. *)
Definition doc72 (o : xml) : xml := Elem (T "vm") [(T "name", T "m")] [] [elem "binaryOptions" [opt [leaf_elem "name" (T "root")]]; elem "numericOptions" [o]].
Definition calls72 (f : feature) : list bcall := [BName (T "m"); BPath (T "/tmp"); BCommit []; BRoot (T "root"); BEdge (T "root") (T "n"); BFeature f].
Lemma describes72 f : f_name f = T "n" -> f_kind f <> FRoot -> describes (calls72 f) (T "root", [f]).
Proof.
  intros N K. constructor.
  - unfold calls72. do 3 (apply dec_other; [exact I|]). apply dec_same. apply dec_other; [exact I|]. apply dec_feature; [rewrite N; vm_compute; intuition congruence|]. apply dec_nil.
  - intros c X. repeat (destruct X as [<-|X]; [first [exact I|exact K]|]). destruct X.
  - intros c X. repeat (destruct X as [<-|X]; [first [exact I|cbn [edge_ok]; unfold taken; cbn [fst snd map]; rewrite N; split; [left; reflexivity|split; [right; left; reflexivity|discriminate]]]|]). destruct X.
  - intros p s X. repeat (destruct X as [E|X]; [first [discriminate E|injection E as <- <-; vm_compute; discriminate]|]). destruct X.
  - intros g X. destruct X as [<-|[]]. apply leads_up. rewrite N. change (leads (fun s => last_edge (calls72 f) s (T "root")) (T "root") (T "root")). apply leads_root.
  - intros c X. repeat (destruct X as [<-|X]; [exact I|]). destruct X.
  - constructor.
Qed.
Definition option_half : xml := number_option "n" [leaf_elem "minValue" (T "0.5"); leaf_elem "maxValue" (T "10"); leaf_elem "stepFunction" (T "n + 20")].
Definition half72 : feature := new_feature (FNumeric (VRange int64_max 10) (step_of "n + 20")) (T "n") false [] (T "n").
Lemma stands_half : stands sci_double step71 (T "/tmp") (doc72 option_half) (calls72 half72).
Proof.
  exists [[BRoot (T "root")]; [BEdge (T "root") (T "n"); BFeature half72]]. split; [|split; [|reflexivity]].
  - constructor; [|constructor; [|constructor]].
    + exists [[BRoot (T "root")]]. split; [|reflexivity]. constructor; [|constructor]. apply binary_stands. exists []. split; [constructor|vm_compute; reflexivity].
    + exists [[BEdge (T "root") (T "n"); BFeature half72]]. split; [|reflexivity]. constructor; [|constructor]. apply (numeric_stands _ [step_of "n + 20"]); [reflexivity| |].
      * constructor; [|constructor]. exact (step_read "n + 20" SAdd 20 steps_n ltac:(discriminate)).
      * lazy - [step_of]. reflexivity.
  - intros p q t A B. repeat (destruct A as [A|A]; [first [discriminate A|injection A as <- <-; repeat (destruct B as [B|B]; [first [discriminate B|injection B as <-; reflexivity]|]); destruct B]|]). destruct A.
Qed.
Lemma half_empty : forall ord h, is_order ord -> heap_ok h ->
  exists h' m', read_xml ord sci_double step71 (T "/tmp") h (doc72 option_half) = SxDone (h', Some m') /\ forall a, ~ SolverSpec.valid h' m' a.
Proof.
  intros ord h O K. destruct (read_valid ord sci_double step71 (T "/tmp") h (doc72 option_half) (calls72 half72) (T "root", [half72]) O K ltac:(vm_compute; reflexivity) stands_half (describes72 half72 eq_refl ltac:(discriminate))) as (h' & m' & R & V).
  exists h', m'. split; [exact R|]. intros a Va. apply V in Va. pose proof (co_values _ _ _ _ Va half72 _ _ (or_introl eq_refl) eq_refl) as X. revert X. apply empty_range. reflexivity.
Qed.
Definition option_split : xml := number_option "n" [leaf_elem "values" (T "0.5;1.5")].
Definition split72 : feature := new_feature (FNumeric (VList [0; 5; 1; 5]%Z) None) (T "n") false [] (T "n").
Lemma stands_split : stands sci_double step71 (T "/tmp") (doc72 option_split) (calls72 split72).
Proof.
  exists [[BRoot (T "root")]; [BEdge (T "root") (T "n"); BFeature split72]]. split; [|split; [|reflexivity]].
  - constructor; [|constructor; [|constructor]].
    + exists [[BRoot (T "root")]]. split; [|reflexivity]. constructor; [|constructor]. apply binary_stands. exists []. split; [constructor|vm_compute; reflexivity].
    + exists [[BEdge (T "root") (T "n"); BFeature split72]]. split; [|reflexivity]. constructor; [|constructor]. apply (numeric_stands _ []); [reflexivity|constructor|vm_compute; reflexivity].
  - intros p q t A B. repeat (destruct A as [A|A]; [first [discriminate A|injection A as <- <-; repeat (destruct B as [B|B]; [first [discriminate B|injection B as <-; reflexivity]|]); destruct B]|]). destruct A.
Qed.
Definition five (z : Z) : assignment := Assignment (fun _ => true) (fun _ => z) (fun _ => 0%Z).
Lemma split_values : forall ord h, is_order ord -> heap_ok h ->
  exists h' m', read_xml ord sci_double step71 (T "/tmp") h (doc72 option_split) = SxDone (h', Some m') /\ exists a, SolverSpec.valid h' m' a /\ a_int a (T "n") = 5%Z.
Proof.
  intros ord h O K. destruct (read_valid ord sci_double step71 (T "/tmp") h (doc72 option_split) (calls72 split72) (T "root", [split72]) O K ltac:(vm_compute; reflexivity) stands_split (describes72 split72 eq_refl ltac:(discriminate))) as (h' & m' & R & V).
  exists h', m'. split; [exact R|]. exists (five 5). split; [|reflexivity]. apply V. constructor.
  - reflexivity.
  - intros f [<-|[]] Kf. discriminate Kf.
  - intros f [<-|[]] Kf. discriminate Kf.
  - intros s (_ & (f & g & (If & _) & (Ig & _) & N) & _) _. destruct If as [<-|[]], Ig as [<-|[]]. congruence.
  - intros s (Ek & _). discriminate Ek.
  - intros f v st [<-|[]] Kf. injection Kf as <- <-. cbn. tauto.
  - intros k e [].
  - intros r k e [].
Qed.
Lemma decimals_misread :
  (forall ord h, is_order ord -> heap_ok h -> exists h' m', read_xml ord sci_double step71 (T "/tmp") h (doc72 option_half) = SxDone (h', Some m') /\ forall a, ~ SolverSpec.valid h' m' a) /\
  (forall ord h, is_order ord -> heap_ok h -> exists h' m', read_xml ord sci_double step71 (T "/tmp") h (doc72 option_split) = SxDone (h', Some m') /\ exists a, SolverSpec.valid h' m' a /\ a_int a (T "n") = 5%Z).
Proof. exact (conj half_empty split_values). Qed.
