(** Examples for saving SXFM texts with other roots as XML. *)
From Coq Require Import List ZArith NArith Arith Bool Ascii String Permutation Lia.
From Verif Require Import Text TextProofs LlvmInt ConstraintModel ConstraintSpec ConstraintParserModel ConstraintTokenSpec ConstraintParserProofs ConstraintRoundTrip
  SourceRangeModel FeatureTreeModel FeatureTreeSpec FeatureTransactionModel FeatureEditSpec FeatureTransactionExamples FeatureBuildSpec FeatureBuildExamples
  SxfmModel SxfmSpec SxfmLineProofs SxfmTreeProofs SxfmFormulaSpec SxfmFormulaProofs SxfmBuildProofs SxfmExamples XmlModel XmlWriterModel XmlSpec XmlTripSpec
  ConfigurationModel SolverModel SolverSpec SolverExamples SxfmConfigSpec SxfmConfigFinal SxfmConfigExamples SxfmXmlSpec SxfmXmlProofs SxfmXmlFinal SxfmXmlExamples SxfmBelowSpec SxfmBelowProofs.
Import ListNotations.
Local Open Scope string_scope.
Local Open Scope list_scope.
Local Open Scope nat_scope.

Definition entries83 : list entry :=
  [Entry 0 Root (T "Car") None; Entry 1 Optional (T "Radio") (Some (T "ra")); Entry 2 (Group RAlternative) [] None; Entry 3 Member (T "AM") (Some (T "a1"));
   Entry 3 Member (T "FM") (Some (T "f1")); Entry 1 (Group ROr) (T "Colour") (Some (T "c")); Entry 2 Member (T "Red") (Some (T "r1")); Entry 2 Member (T "Blue") (Some (T "b1"))].
Definition rows83 : list text :=
  [T ":r Car"; tab ++ T ":o Radio(ra)"; tab ++ tab ++ T ":g [1,1] "; tab ++ tab ++ tab ++ T ": AM(a1)"; tab ++ tab ++ tab ++ T ": FM(f1)";
   tab ++ T ":g Colour(c) [1,*]"; tab ++ tab ++ T ": Red(r1)"; tab ++ tab ++ T ": Blue(b1)"].
Definition text83 : text := lines rows83 [].
Lemma pages83 : pages tab (rows83 ++ [[]]) entries83.
Proof.
  unfold rows83, entries83. cbn [app].
  is_entry "r Car". { apply (body_root (T "Car") None []); [discriminate|constructor]. }
  is_entry "o Radio(ra)". { apply (body_optional (T "Radio") _ (T "(" ++ T "ra" ++ T ")")); [discriminate|constructor]. }
  is_entry "g [1,1] ". { apply (body_group_before [] None [] RAlternative). constructor. }
  is_entry " AM(a1)". { apply (body_member (T "AM") _ (T "(" ++ T "a1" ++ T ")")); [discriminate|constructor]. }
  is_entry " FM(f1)". { apply (body_member (T "FM") _ (T "(" ++ T "f1" ++ T ")")); [discriminate|constructor]. }
  is_entry "g Colour(c) [1,*]". { apply (body_group (T "Colour") _ (T "(" ++ T "c" ++ T ")") (T " ") ROr); [constructor|right; reflexivity]. }
  is_entry " Red(r1)". { apply (body_member (T "Red") _ (T "(" ++ T "r1" ++ T ")")); [discriminate|constructor]. }
  is_entry " Blue(b1)". { apply (body_member (T "Blue") _ (T "(" ++ T "b1" ++ T ")")); [discriminate|constructor]. }
  apply pages_blank; [|constructor]. constructor.
Qed.
Lemma text83_ok : tree_text tab entries83 text83.
Proof. exists rows83, []. split; [reflexivity|exact pages83]. Qed.
Lemma entries83_ok : forall e, In e entries83 -> entry_ok e /\ id_apart e.
Proof. apply entries_b_ok. vm_compute. reflexivity. Qed.
Lemma tree83_ok : tree_ok entries83.
Proof.
  constructor.
  - eexists _, _. split; [reflexivity|]. split; [reflexivity|]. intros x I. repeat (destruct I as [<-|I]; [discriminate|]). destruct I.
  - apply distinct_b_ok. vm_compute. reflexivity.
  - cbn. lia.
Qed.
Lemma other83 : labels_other entries83.
Proof.
  intros i s L. destruct (labelled_at _ _ _ L) as (-> & B). change (List.length entries83) with 8 in B.
  destruct i as [|[|[|[|[|[|[|[|i]]]]]]]]; [..|lia]; (split; [vm_compute; reflexivity|]); vm_compute; intuition (discriminate || tauto).
Qed.
Lemma groups83 : groups_savable entries83.
Proof.
  intros j k M. destruct (marked_at _ _ _ M) as (Em & L). change (List.length entries83) with 8 in L.
  destruct j as [|[|[|[|[|[|[|[|j]]]]]]]]; try discriminate Em; [| |lia].
  - split; [exists 3, 4, (T "AM"), (T "FM"); split; [|split; [|lia]]; apply kids_ok; split; vm_compute; tauto|].
    intros i s C Mo. apply kids_ok in C. destruct C as (C & _). vm_compute in C. destruct (marked_at _ _ _ Mo) as (Eo & _). destruct C as [<-|[<-|[]]]; discriminate Eo.
  - split; [exists 6, 7, (T "Red"), (T "Blue"); split; [|split; [|lia]]; apply kids_ok; split; vm_compute; tauto|].
    intros i s C Mo. apply kids_ok in C. destruct C as (C & _). vm_compute in C. destruct (marked_at _ _ _ Mo) as (Eo & _). destruct C as [<-|[<-|[]]]; discriminate Eo.
Qed.

(** ** A formula *)
Definition meaning83 (w : text) : text := match standing (rev entries83) w with Some n => n | None => w end.
Lemma legible83 : legible entries83 meaning83 first20 others20.
Proof.
  constructor.
  - intros w I. split; [|split; [apply means_computed|]].
    + destruct I as [<-|[<-|[<-|[]]]]; (split; [discriminate|]); apply forallb_forall; vm_compute; reflexivity.
    + destruct I as [<-|[<-|[<-|[]]]]; (split; [apply identifierb_ok; vm_compute; reflexivity|vm_compute; discriminate]).
  - apply untouched_b_ok. vm_compute. reflexivity.
  - intros o n (S & _). apply standing_ok in S. destruct o; vm_compute in S; discriminate S.
Qed.
Lemma constraints83_ok : constraints_text entries83 [formula20] constraints20.
Proof.
  exists [T "c1: f1 or r1 and ra"], []. split; [reflexivity|]. apply stated_line.
  - apply (states_line entries83 (T "c1") (T " ") first20 others20 [] meaning83 formula20).
    + cbn. intuition discriminate.
    + intros I. cbn in I. intuition discriminate.
    + repeat constructor.
    + constructor.
    + exact legible83.
    + change (spells ([ConstraintSpec.SName "FM"] ++ SInf BOr :: ([ConstraintSpec.SName "Red"] ++ SInf BAnd :: [ConstraintSpec.SName "Radio"])) formula20).
      apply (e_inf 9 BOr); [cbn; lia|apply e_unary, u_name|]. apply (e_inf _ BAnd); [cbn; lia| |]; apply e_unary, u_name.
  - apply stated_blank; constructor.
Qed.
Lemma known83 : names_known entries83 [formula20].
Proof. intros c s [<-|[]] I. cbn [formula20 leaves app In] in I. destruct I as [<-|[<-|[<-|[]]]]; vm_compute; tauto. Qed.
Definition document83 : document := Document (Some (T "cars")) None text83 (Some constraints20).

(** The radio plays AM, the colour is red. *)
Definition sel83 (s : text) : bool := negb (existsb (text_eqb s) [T "FM"; T "Blue"]).
Lemma stated83 : stated_configuration (alternated entries83) [formula20] sel83.
Proof. apply stated_b_ok; [vm_compute; reflexivity|]. intros c [<-|[]]. apply truth81; reflexivity. Qed.
Definition tried83 : list assignment :=
  map (fun l => Assignment (fun s => negb (existsb (text_eqb s) l)) (fun _ => 0%Z) (fun _ => 0%Z))
    [map T ["AM"; "Red"]; map T ["AM"; "Blue"]; map T ["FM"; "Blue"]; map T ["FM"]; []].
Definition listing83 : option (list (list (option string))) :=
  let* (h, m) := converted document83 in
  let* s := SolverModel.load order 9 h m in let* r := get_all (trying tried83) 20 s in
  match r with inl l => Some (map (fun c => map (fun n => option_map U (option_value c n)) (map T ["root"; "Car"; "Radio"; "AM"; "FM"; "Red"; "Blue"])) l) | inr _ => None end.
Lemma listed83 : (let row a f r b := map Some ["true"; "true"; "true"; a; f; r; b] in listing83 = Some [row "false" "true" "false" "true"; row "false" "true" "true" "false"; row "true" "false" "true" "false"]).
Proof. cbv zeta. vm_compute. reflexivity. Qed.
Lemma below_example :
  is_order order /\ sci_nonneg no_sci /\ (forall l : list (nat * (text * rkind)), Permutation (rev l) l) /\ heap_ok heap0 /\ tidy (T "cars") /\ indentation_ok tab /\
  (forall e, In e entries83 -> entry_ok e /\ id_apart e) /\ tree_ok entries83 /\ labels_other entries83 /\ groups_savable entries83 /\ tree_text tab entries83 text83 /\
  constraints_text entries83 [formula20] constraints20 /\ names_known entries83 [formula20] /\ (forall c, In c [formula20] -> ~ negates c) /\
  stated_configuration (alternated entries83) [formula20] sel83.
Proof.
  split; [exact order_ok|]. split; [exact no_sci_nonneg|]. split; [intros l; apply Permutation_sym, Permutation_rev|]. split; [exact heap0_ok|]. split; [reflexivity|]. split; [exact indentation1|].
  split; [exact entries83_ok|]. split; [exact tree83_ok|]. split; [exact other83|]. split; [exact groups83|]. split; [exact text83_ok|]. split; [exact constraints83_ok|]. split; [exact known83|]. split; [exact plain20|exact stated83].
Qed.
