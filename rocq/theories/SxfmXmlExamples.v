(** Examples for saving SXFM texts as XML. *)
From Coq Require Import List ZArith NArith Arith Bool Ascii String Permutation Lia.
From Verif Require Import Text TextProofs LlvmInt ConstraintModel ConstraintSpec ConstraintParserModel ConstraintTokenSpec ConstraintParserProofs ConstraintRoundTrip
  SourceRangeModel FeatureTreeModel FeatureTreeSpec FeatureTransactionModel FeatureEditSpec FeatureTransactionExamples FeatureBuildSpec FeatureBuildExamples
  SxfmModel SxfmSpec SxfmLineProofs SxfmTreeProofs SxfmFormulaSpec SxfmFormulaProofs SxfmBuildProofs SxfmExamples XmlModel XmlWriterModel XmlSpec XmlTripSpec
  ConfigurationModel SolverModel SolverSpec SolverExamples SxfmConfigSpec SxfmConfigFinal SxfmConfigExamples SxfmXmlSpec SxfmXmlProofs SxfmXmlFinal.
Import ListNotations.
Local Open Scope string_scope.
Local Open Scope list_scope.
Local Open Scope nat_scope.

Definition entries81 : list entry :=
  [Entry 0 Root (T "root") None; Entry 1 Optional (T "Radio") (Some (T "ra")); Entry 2 (Group RAlternative) [] None; Entry 3 Member (T "AM") (Some (T "a1"));
   Entry 3 Member (T "FM") (Some (T "f1")); Entry 1 (Group ROr) (T "Colour") (Some (T "c")); Entry 2 Member (T "Red") (Some (T "r1")); Entry 2 Member (T "Blue") (Some (T "b1"))].
Definition rows81 : list text :=
  [T ":r root"; tab ++ T ":o Radio(ra)"; tab ++ tab ++ T ":g [1,1] "; tab ++ tab ++ tab ++ T ": AM(a1)"; tab ++ tab ++ tab ++ T ": FM(f1)";
   tab ++ T ":g Colour(c) [1,*]"; tab ++ tab ++ T ": Red(r1)"; tab ++ tab ++ T ": Blue(b1)"].
Definition text81 : text := lines rows81 [].
Lemma pages81 : pages tab (rows81 ++ [[]]) entries81.
Proof.
  unfold rows81, entries81. cbn [app].
  is_entry "r root". { apply (body_root (T "root") None []); [discriminate|constructor]. }
  is_entry "o Radio(ra)". { apply (body_optional (T "Radio") _ (T "(" ++ T "ra" ++ T ")")); [discriminate|constructor]. }
  is_entry "g [1,1] ". { apply (body_group_before [] None [] RAlternative). constructor. }
  is_entry " AM(a1)". { apply (body_member (T "AM") _ (T "(" ++ T "a1" ++ T ")")); [discriminate|constructor]. }
  is_entry " FM(f1)". { apply (body_member (T "FM") _ (T "(" ++ T "f1" ++ T ")")); [discriminate|constructor]. }
  is_entry "g Colour(c) [1,*]". { apply (body_group (T "Colour") _ (T "(" ++ T "c" ++ T ")") (T " ") ROr); [constructor|right; reflexivity]. }
  is_entry " Red(r1)". { apply (body_member (T "Red") _ (T "(" ++ T "r1" ++ T ")")); [discriminate|constructor]. }
  is_entry " Blue(b1)". { apply (body_member (T "Blue") _ (T "(" ++ T "b1" ++ T ")")); [discriminate|constructor]. }
  apply pages_blank; [|constructor]. constructor.
Qed.
Lemma text81_ok : tree_text tab entries81 text81.
Proof. exists rows81, []. split; [reflexivity|exact pages81]. Qed.
Lemma entries81_ok : forall e, In e entries81 -> entry_ok e /\ id_apart e.
Proof. apply entries_b_ok. vm_compute. reflexivity. Qed.
Lemma tree81_ok : tree_ok entries81.
Proof.
  constructor.
  - eexists _, _. split; [reflexivity|]. split; [reflexivity|]. intros x I. repeat (destruct I as [<-|I]; [discriminate|]). destruct I.
  - apply distinct_b_ok. vm_compute. reflexivity.
  - cbn. lia.
Qed.
Lemma savable81 : labels_savable entries81.
Proof.
  intros i s L. destruct (labelled_at _ _ _ L) as (-> & B). change (List.length entries81) with 8 in B.
  destruct i as [|[|[|[|[|[|[|[|i]]]]]]]]; [..|lia]; (split; [vm_compute; reflexivity|]); vm_compute; intuition (discriminate || tauto).
Qed.
Lemma groups81 : groups_savable entries81.
Proof.
  intros j k M. destruct (marked_at _ _ _ M) as (Em & L). change (List.length entries81) with 8 in L.
  destruct j as [|[|[|[|[|[|[|[|j]]]]]]]]; try discriminate Em; [| |lia].
  - split; [exists 3, 4, (T "AM"), (T "FM"); split; [|split; [|lia]]; apply kids_ok; split; vm_compute; tauto|].
    intros i s C Mo. apply kids_ok in C. destruct C as (C & _). vm_compute in C. destruct (marked_at _ _ _ Mo) as (Eo & _). destruct C as [<-|[<-|[]]]; discriminate Eo.
  - split; [exists 6, 7, (T "Red"), (T "Blue"); split; [|split; [|lia]]; apply kids_ok; split; vm_compute; tauto|].
    intros i s C Mo. apply kids_ok in C. destruct C as (C & _). vm_compute in C. destruct (marked_at _ _ _ Mo) as (Eo & _). destruct C as [<-|[<-|[]]]; discriminate Eo.
Qed.

(** ** A formula *)
Definition meaning81 (w : text) : text := match standing (rev entries81) w with Some n => n | None => w end.
Lemma legible81 : legible entries81 meaning81 first20 others20.
Proof.
  constructor.
  - intros w I. split; [|split; [apply means_computed|]].
    + destruct I as [<-|[<-|[<-|[]]]]; (split; [discriminate|]); apply forallb_forall; vm_compute; reflexivity.
    + destruct I as [<-|[<-|[<-|[]]]]; (split; [apply identifierb_ok; vm_compute; reflexivity|vm_compute; discriminate]).
  - apply untouched_b_ok. vm_compute. reflexivity.
  - intros o n (S & _). apply standing_ok in S. destruct o; vm_compute in S; discriminate S.
Qed.
Lemma constraints81_ok : constraints_text entries81 [formula20] constraints20.
Proof.
  exists [T "c1: f1 or r1 and ra"], []. split; [reflexivity|]. apply stated_line.
  - apply (states_line entries81 (T "c1") (T " ") first20 others20 [] meaning81 formula20).
    + cbn. intuition discriminate.
    + intros I. cbn in I. intuition discriminate.
    + repeat constructor.
    + constructor.
    + exact legible81.
    + change (spells ([ConstraintSpec.SName "FM"] ++ SInf BOr :: ([ConstraintSpec.SName "Red"] ++ SInf BAnd :: [ConstraintSpec.SName "Radio"])) formula20).
      apply (e_inf 9 BOr); [cbn; lia|apply e_unary, u_name|]. apply (e_inf _ BAnd); [cbn; lia| |]; apply e_unary, u_name.
  - apply stated_blank; constructor.
Qed.
Lemma known81 : names_known entries81 [formula20].
Proof. intros c s [<-|[]] I. cbn [formula20 leaves app In] in I. destruct I as [<-|[<-|[<-|[]]]]; vm_compute; tauto. Qed.
Definition document81 : document := Document (Some (T "cars")) None text81 (Some constraints20).

Lemma forallb_neg {A} (l : list A) : forall f, forallb f l = false -> exists x, In x l /\ f x = false.
Proof. intros f. induction l as [|x l IH]; cbn [forallb]; [discriminate|]. destruct (f x) eqn:E; cbn [andb]; [|exists x; cbn; auto]. intros H. destruct (IH H) as (y & I & Ey). exists y. cbn. auto. Qed.
(** The radio plays AM, the colour is red; or it is both red and blue. *)
Definition sel81 (s : text) : bool := negb (existsb (text_eqb s) [T "FM"; T "Blue"]).
Definition both81 (s : text) : bool := negb (text_eqb s (T "FM")).
Lemma truth81 sel : sel (T "Red") = true -> sel (T "Radio") = true -> truth sel formula20 true.
Proof.
  intros A B. pose proof (truth_or sel _ _ _ _ (truth_name sel "FM") (truth_and sel _ _ _ _ (truth_name sel "Red") (truth_name sel "Radio"))) as H. rewrite A, B in H. destruct (sel (T "FM")); exact H.
Qed.
Lemma stated81 : stated_configuration (alternated entries81) [formula20] sel81.
Proof. apply stated_b_ok; [vm_compute; reflexivity|]. intros c [<-|[]]. apply truth81; reflexivity. Qed.
Lemma stated_both : stated_configuration entries81 [formula20] both81.
Proof. apply stated_b_ok; [vm_compute; reflexivity|]. intros c [<-|[]]. apply truth81; reflexivity. Qed.
Definition converted (d : document) : option (heap * fmodel) :=
  let* (h, m) := SxfmExamples.outcome (read_sxfm order no_sci (@rev _) 9 true heap0 d) in
  let* doc := write_xml order h m in
  SxfmExamples.outcome (read_xml order no_sci (fun _ => SxRefused) [] heap0 doc).
Definition tried81 : list assignment :=
  map (fun l => Assignment (fun s => negb (existsb (text_eqb s) l)) (fun _ => 0%Z) (fun _ => 0%Z))
    [map T ["AM"; "Red"]; map T ["AM"; "Blue"]; map T ["FM"; "Blue"]; map T ["FM"]; []].
Definition listing81 : option (list (list (option string))) :=
  let* (h, m) := converted document81 in
  let* s := SolverModel.load order 9 h m in let* r := get_all (trying tried81) 20 s in
  match r with inl l => Some (map (fun c => map (fun n => option_map U (option_value c n)) (map T ["Radio"; "AM"; "FM"; "Red"; "Blue"])) l) | inr _ => None end.
Lemma listed81 : (let row a f r b := map Some ["true"; a; f; r; b] in listing81 = Some [row "false" "true" "false" "true"; row "false" "true" "true" "false"; row "true" "false" "true" "false"]).
Proof. cbv zeta. vm_compute. reflexivity. Qed.
Lemma no_sci_nonneg : sci_nonneg no_sci.
Proof. intros x y E. discriminate E. Qed.
Lemma converted_example :
  is_order order /\ sci_nonneg no_sci /\ (forall l : list (nat * (text * rkind)), Permutation (rev l) l) /\ heap_ok heap0 /\ tidy (T "cars") /\ indentation_ok tab /\
  (forall e, In e entries81 -> entry_ok e /\ id_apart e) /\ tree_ok entries81 /\ labels_savable entries81 /\ groups_savable entries81 /\ tree_text tab entries81 text81 /\
  constraints_text entries81 [formula20] constraints20 /\ names_known entries81 [formula20] /\ (forall c, In c [formula20] -> ~ negates c) /\
  stated_configuration (alternated entries81) [formula20] sel81.
Proof.
  split; [exact order_ok|]. split; [exact no_sci_nonneg|]. split; [intros l; apply Permutation_sym, Permutation_rev|]. split; [exact heap0_ok|]. split; [reflexivity|]. split; [exact indentation1|].
  split; [exact entries81_ok|]. split; [exact tree81_ok|]. split; [exact savable81|]. split; [exact groups81|]. split; [exact text81_ok|]. split; [exact constraints81_ok|]. split; [exact known81|]. split; [exact plain20|exact stated81].
Qed.
Lemma or_refuted : exists ord sci order' or_first h step cwd d n ind es cs sel,
  is_order ord /\ sci_nonneg sci /\ (forall l, Permutation (order' l) l) /\ heap_ok h /\ d_name d = Some n /\ tidy n /\
  ind = match d_indentation d with Some i => i | None => [ascii_of_nat 9] end /\ indentation_ok ind /\
  (forall e, In e es -> entry_ok e /\ id_apart e) /\ tree_ok es /\ labels_savable es /\ groups_savable es /\ tree_text ind es (d_tree d) /\
  match d_constraints d with Some t => constraints_text es cs t | None => cs = [] end /\ names_known es cs /\ stated_configuration es cs sel /\
  exists k, forall fuel, k <= fuel -> exists h1 m1 doc h2 m2, read_sxfm ord sci order' fuel or_first h d = SxDone (h1, Some m1) /\
    (exists a, SolverSpec.valid h1 m1 a /\ forall s, a_bool a s = sel s) /\
    write_xml ord h1 m1 = Some doc /\ read_xml ord sci step cwd h doc = SxDone (h2, Some m2) /\
    forall a, SolverSpec.valid h2 m2 a -> exists s, a_bool a s <> sel s.
Proof.
  exists order, no_sci, (@rev _), true, heap0, (fun _ => SxRefused), [], document81, (T "cars"), tab, entries81, [formula20], both81.
  destruct converted_example as (A & B & C & D & E & F & G & H & I & J & K & L & M & N & _). repeat (split; [assumption|]). split; [reflexivity|]. split; [exact E|]. split; [reflexivity|]. repeat (split; [assumption|]). split; [exact stated_both|].
  destruct (document_kept order order order order no_sci (@rev _) true heap0 heap0 (fun _ => SxRefused) [] document81 (T "cars") tab entries81 [formula20] (fun _ => None) A A A A B C D D eq_refl E eq_refl F G H I J K L M) as (k & Q).
  destruct (document_valid order no_sci (@rev _) true heap0 document81 (T "cars") tab entries81 [formula20] A C D eq_refl eq_refl F G H K L M) as (k' & Q').
  exists (k + k'). intros fuel Lf. destruct (Q fuel ltac:(lia)) as (h1 & m1 & doc & h2 & m2 & E1 & E2 & E3 & V & _). destruct (Q' fuel ltac:(lia)) as (h1' & m1' & E1' & V'). rewrite E1 in E1'. injection E1' as <- <-.
  exists h1, m1, doc, h2, m2. split; [exact E1|]. split; [|split; [exact E2|split; [exact E3|]]].
  - exists (Assignment both81 (fun _ => 0%Z) (fun _ => 0%Z)). split; [|reflexivity]. apply V'. split; [exact stated_both|exact N].
  - intros a Va. apply V in Va. destruct Va as (S & _).
    assert (forallb (fun s => Bool.eqb (a_bool a s) (both81 s)) (labels entries81) = false) as X.
    { destruct (forallb (fun s => Bool.eqb (a_bool a s) (both81 s)) (labels entries81)) eqn:X; [|reflexivity]. exfalso. rewrite forallb_forall in X.
      destruct (sc_alternative _ _ _ S 5 (T "Colour")) as (i & s & _ & _ & Un).
      - exists (Entry 1 (Group RAlternative) (T "Colour") (Some (T "c"))). split; reflexivity.
      - reflexivity.
      - rewrite (eqb_prop _ _ (X (T "Colour") ltac:(vm_compute; tauto))). reflexivity.
      - assert (6 = i) as Y by (apply (Un 6 (T "Red")); [apply kids_ok; split; vm_compute; tauto|rewrite (eqb_prop _ _ (X (T "Red") ltac:(vm_compute; tauto))); reflexivity]).
        assert (7 = i) as Z by (apply (Un 7 (T "Blue")); [apply kids_ok; split; vm_compute; tauto|rewrite (eqb_prop _ _ (X (T "Blue") ltac:(vm_compute; tauto))); reflexivity]). lia. }
    destruct (forallb_neg (labels entries81)) with (f := fun s => Bool.eqb (a_bool a s) (both81 s)) as (s & _ & Es); [exact X|]. exists s. intros Y. rewrite Y, eqb_reflx in Es. discriminate Es.
Qed.

(** ** A root with another name *)
Definition extra20 : bool :=
  match SxfmExamples.outcome (read_sxfm order no_sci (@rev _) 9 true heap0 document20) with
  | Some (h, m) =>
      match write_xml order h m with
      | Some doc =>
          match read_xml order no_sci (fun _ => SxRefused) [] heap0 doc with
          | SxDone (h', Some m') =>
              match m_root m' with
              | Some r => match name_at h' r with Some s => negb (existsb (text_eqb s) (labels entries1)) && match get_feature m' s with Some r' => r =? r' | None => false end | None => false end
              | None => false
              end
          | _ => false
          end
      | None => false
      end
  | None => false
  end.
Lemma extra20_ok : extra20 = true.
Proof. vm_compute. reflexivity. Qed.
Lemma root_refuted : exists ord sci order' or_first h step cwd d n ind es cs,
  is_order ord /\ sci_nonneg sci /\ (forall l, Permutation (order' l) l) /\ heap_ok h /\ d_name d = Some n /\ tidy n /\
  ind = match d_indentation d with Some i => i | None => [ascii_of_nat 9] end /\ indentation_ok ind /\
  (forall e, In e es -> entry_ok e /\ id_apart e) /\ tree_ok es /\ tree_text ind es (d_tree d) /\
  match d_constraints d with Some t => constraints_text es cs t | None => cs = [] end /\ names_known es cs /\
  exists fuel h1 m1 doc h2 m2 r s, read_sxfm ord sci order' fuel or_first h d = SxDone (h1, Some m1) /\
    write_xml ord h1 m1 = Some doc /\ read_xml ord sci step cwd h doc = SxDone (h2, Some m2) /\
    m_root m2 = Some r /\ get_feature m2 s = Some r /\ ~ In s (labels es).
Proof.
  exists order, no_sci, (@rev _), true, heap0, (fun _ => SxRefused), [], document20, (T "cars"), tab, entries1, [formula20].
  split; [exact order_ok|]. split; [exact no_sci_nonneg|]. split; [intros l; apply Permutation_sym, Permutation_rev|]. split; [exact heap0_ok|]. split; [reflexivity|]. split; [reflexivity|]. split; [reflexivity|]. split; [exact indentation1|].
  split; [exact entries1_ok|]. split; [exact tree1_ok|]. split; [exact text1_ok|]. split; [exact constraints20_ok|]. split; [exact known20|]. exists 9. pose proof extra20_ok as E. unfold extra20, SxfmExamples.outcome in E.
  destruct (read_sxfm order no_sci (@rev _) 9 true heap0 document20) as [(h1 & [m1|])| | | |]; try discriminate E. exists h1, m1. destruct (write_xml order h1 m1) as [doc|] eqn:Ew; [|discriminate E]. exists doc.
  destruct (read_xml order no_sci (fun _ => SxRefused) [] heap0 doc) as [(h2 & [m2|])| | | |] eqn:Er; try discriminate E. exists h2, m2. destruct (m_root m2) as [r|] eqn:Em; [|discriminate E]. destruct (name_at h2 r) as [s|]; [|discriminate E].
  apply andb_prop in E. destruct E as (E1 & E2). destruct (get_feature m2 s) as [r'|] eqn:G; [|discriminate E2]. apply Nat.eqb_eq in E2. subst r'. exists r, s. repeat (split; [reflexivity || assumption|]).
  intros I. apply negb_true_iff in E1. assert (existsb (text_eqb s) (labels entries1) = true); [|congruence]. apply existsb_exists. exists s. split; [exact I|]. apply text_eqb_eq. reflexivity.
Qed.
Lemma alternatives_example : only_alternatives (alternated entries81) /\ marked (alternated entries81) 5 (Group RAlternative).
Proof.
  split; [|eexists; split; reflexivity]. intros j M. destruct (marked_at _ _ _ M) as (Em & L). change (List.length (alternated entries81)) with 8 in L. destruct j as [|[|[|[|[|[|[|[|j]]]]]]]]; try discriminate Em. lia.
Qed.
