(** Examples for the configurations of SXFM texts. *)
From Coq Require Import List ZArith NArith Arith Bool Ascii String Permutation Lia.
From Verif Require Import Text TextProofs LlvmInt ConstraintModel ConstraintSpec ConstraintParserModel ConstraintTokenSpec ConstraintParserProofs ConstraintRoundTrip
  SourceRangeModel FeatureTreeModel FeatureTreeSpec FeatureTransactionModel FeatureEditSpec FeatureTransactionExamples FeatureBuildSpec FeatureBuildExamples
  SxfmModel SxfmSpec SxfmLineProofs SxfmTreeProofs SxfmFormulaSpec SxfmFormulaProofs SxfmBuildProofs SxfmExamples ConfigurationModel SolverModel SolverSpec SolverExamples SxfmConfigSpec SxfmConfigFinal.
Import ListNotations.
Local Open Scope string_scope.
Local Open Scope list_scope.
Local Open Scope nat_scope.

(** Deciding the conditions on selections. *)
Definition closest_b (ls : list nat) (i j : nat) : bool :=
  match nth_error ls i with
  | Some (S l) => (match nth_error ls j with Some k => k =? l | None => false end) && (j <? i) &&
      forallb (fun k => match nth_error ls k with Some x => negb (x =? l) | None => true end) (seq (S j) (i - S j))
  | _ => false
  end.
Lemma closest_b_ok ls i j : closest ls i j <-> closest_b ls i j = true.
Proof.
  unfold closest, closest_b. split.
  - intros (l & -> & -> & L & M). rewrite Nat.eqb_refl, (proj2 (Nat.ltb_lt j i) L). cbn [andb]. apply forallb_forall. intros k K. apply in_seq in K. specialize (M k ltac:(lia)).
    destruct (nth_error ls k) as [x|]; [|reflexivity]. apply negb_true_iff, Nat.eqb_neq. congruence.
  - destruct (nth_error ls i) as [[|l]|]; try discriminate. destruct (nth_error ls j) as [k|]; [|discriminate]. rewrite !andb_true_iff, Nat.eqb_eq, Nat.ltb_lt, forallb_forall. intros ((-> & L) & M).
    exists l. repeat split; [exact L|]. intros k K E. specialize (M k ltac:(apply in_seq; lia)). rewrite E, Nat.eqb_refl in M. discriminate M.
Qed.
Definition mark_eqb (a b : mark) : bool :=
  match a, b with
  | Root, Root | Mandatory, Mandatory | Optional, Optional | Member, Member => true
  | Group RAlternative, Group RAlternative | Group ROr, Group ROr => true
  | _, _ => false
  end.
Lemma mark_eqb_ok a b : mark_eqb a b = true <-> a = b.
Proof. destruct a as [| | | |[]], b as [| | | |[]]; cbn; split; congruence. Qed.
Definition at_label (es : list entry) (i : nat) : text := nth i (labels es) [].
Definition at_mark (es : list entry) (i : nat) : mark := match nth_error es i with Some e => e_mark e | None => Root end.
Definition kids (es : list entry) (j : nat) : list nat := filter (fun i => closest_b (levels es) i j) (seq 0 (List.length es)).
Definition stated_b (es : list entry) (sel : text -> bool) : bool :=
  let on i := sel (at_label es i) in
  on 0 &&
  forallb (fun j =>
    forallb (fun i => implb (on i) (on j) &&
      implb (on j) (mark_eqb (at_mark es i) Optional || match at_mark es j with Group _ => true | _ => false end || on i)) (kids es j) &&
    match at_mark es j with
    | Group RAlternative => implb (on j) (List.length (filter on (kids es j)) =? 1)
    | Group ROr => implb (on j) (existsb on (kids es j))
    | _ => true
    end) (seq 0 (List.length es)).
Lemma labelled_at es i s : labelled es i s -> s = at_label es i /\ i < List.length es.
Proof. intros L. unfold at_label. rewrite (nth_error_nth _ _ _ L). split; [reflexivity|]. rewrite <- labels_length. exact (nth_below _ _ _ L). Qed.
Lemma kids_ok es j i s : child es j i s <-> In i (kids es j) /\ labelled es i s.
Proof.
  unfold child, kids. rewrite filter_In, closest_b_ok, in_seq. split; [intros (C & L); destruct (labelled_at _ _ _ L); repeat split; try lia; assumption|tauto].
Qed.
Lemma kid_label es j i : In i (kids es j) -> labelled es i (at_label es i).
Proof. unfold kids. rewrite filter_In, in_seq. intros (L & _). unfold labelled, at_label. apply nth_error_nth'. rewrite labels_length. lia. Qed.
Lemma marked_at es i m : marked es i m -> at_mark es i = m /\ i < List.length es.
Proof. intros (e & E & M). unfold at_mark. rewrite E. split; [exact M|]. apply nth_error_Some. congruence. Qed.
Lemma stated_b_ok es cs sel : stated_b es sel = true -> (forall c, In c cs -> truth sel c true) -> stated_configuration es cs sel.
Proof.
  unfold stated_b. rewrite andb_true_iff, forallb_forall. intros (R & H) F.
  assert (forall i j s, child es j i s -> j < List.length es /\ i < List.length es) as Lt.
  { intros i j s (C & L). destruct (labelled_at _ _ _ L) as (_ & Li). destruct C as (l & _ & _ & X & _). split; lia. }
  constructor.
  - intros s L. destruct (labelled_at _ _ _ L) as (-> & _). exact R.
  - intros i j s p C Lj S. destruct (Lt _ _ _ C) as (Lj' & _). apply kids_ok in C. destruct C as (I & L). destruct (labelled_at _ _ _ L) as (-> & _). destruct (labelled_at _ _ _ Lj) as (-> & _).
    specialize (H j ltac:(apply in_seq; lia)). apply andb_prop in H. destruct H as (H & _). rewrite forallb_forall in H. specialize (H i I). apply andb_prop in H. destruct H as (H & _). rewrite S in H. exact H.
  - intros i j s p m C Lj No Mj Ng S. destruct (Lt _ _ _ C) as (Lj' & Li'). apply kids_ok in C. destruct C as (I & L). destruct (labelled_at _ _ _ L) as (-> & _). destruct (labelled_at _ _ _ Lj) as (-> & _).
    specialize (H j ltac:(apply in_seq; lia)). apply andb_prop in H. destruct H as (H & _). rewrite forallb_forall in H. specialize (H i I). apply andb_prop in H. destruct H as (_ & H). rewrite S in H. cbn [implb] in H.
    destruct (marked_at _ _ _ Mj) as (Em & _). rewrite Em in H. rewrite !orb_true_iff in H. destruct H as [[H|H]|H]; [|destruct m; try discriminate; exfalso; eapply Ng; reflexivity|exact H].
    exfalso. apply No. apply mark_eqb_ok in H. unfold at_mark in H. destruct (nth_error es i) as [e|] eqn:E; [|discriminate]. exists e. split; [exact E|exact H].
  - intros j p Mj Lj S. destruct (marked_at _ _ _ Mj) as (Em & Lj'). destruct (labelled_at _ _ _ Lj) as (-> & _). specialize (H j ltac:(apply in_seq; lia)). apply andb_prop in H. destruct H as (_ & H).
    rewrite Em, S in H. cbn [implb] in H. apply Nat.eqb_eq in H. destruct (filter _ (kids es j)) as [|i [|? ?]] eqn:Q; try discriminate H.
    assert (In i (filter (fun i => sel (at_label es i)) (kids es j))) as Ii by (rewrite Q; left; reflexivity). apply filter_In in Ii. destruct Ii as (Ii & Si).
    exists i, (at_label es i). split; [apply kids_ok; split; [exact Ii|exact (kid_label _ _ _ Ii)]|]. split; [exact Si|]. intros i' s' C' S'. apply kids_ok in C'. destruct C' as (I' & L'). destruct (labelled_at _ _ _ L') as (-> & _).
    assert (In i' (filter (fun i => sel (at_label es i)) (kids es j))) as X by (apply filter_In; split; assumption). rewrite Q in X. destruct X as [X|[]]. symmetry. exact X.
  - intros j p Mj Lj S. destruct (marked_at _ _ _ Mj) as (Em & Lj'). destruct (labelled_at _ _ _ Lj) as (-> & _). specialize (H j ltac:(apply in_seq; lia)). apply andb_prop in H. destruct H as (_ & H).
    rewrite Em, S in H. cbn [implb] in H. apply existsb_exists in H. destruct H as (i & Ii & Si). exists i, (at_label es i). split; [apply kids_ok; split; [exact Ii|exact (kid_label _ _ _ Ii)]|exact Si].
  - exact F.
Qed.

(** ** A formula without negation *)
Definition first20 : literal := Literal false (T "f1").
Definition others20 : connected := [(true, Literal false (T "r1")); (false, Literal false (T "ra"))].
Definition formula20 : cexpr string := CBin BOr (CFeat "FM") (CBin BAnd (CFeat "Red") (CFeat "Radio")).
Definition constraints20 : text := lines [T "c1: f1 or r1 and ra"] [].
Lemma legible20 : legible entries1 meaning1 first20 others20.
Proof.
  constructor.
  - intros w I. split; [|split; [apply means_computed|]].
    + destruct I as [<-|[<-|[<-|[]]]]; (split; [discriminate|]); apply forallb_forall; vm_compute; reflexivity.
    + destruct I as [<-|[<-|[<-|[]]]]; (split; [apply identifierb_ok; vm_compute; reflexivity|vm_compute; discriminate]).
  - apply untouched_b_ok. vm_compute. reflexivity.
  - intros o n (S & _). apply standing_ok in S. destruct o; vm_compute in S; discriminate S.
Qed.
Lemma constraints20_ok : constraints_text entries1 [formula20] constraints20.
Proof.
  exists [T "c1: f1 or r1 and ra"], []. split; [reflexivity|]. apply stated_line.
  - apply (states_line entries1 (T "c1") (T " ") first20 others20 [] meaning1 formula20).
    + cbn. intuition discriminate.
    + intros I. cbn in I. intuition discriminate.
    + repeat constructor.
    + constructor.
    + exact legible20.
    + change (spells ([ConstraintSpec.SName "FM"] ++ SInf BOr :: ([ConstraintSpec.SName "Red"] ++ SInf BAnd :: [ConstraintSpec.SName "Radio"])) formula20).
      apply (e_inf 9 BOr); [cbn; lia|apply e_unary, u_name|]. apply (e_inf _ BAnd); [cbn; lia| |]; apply e_unary, u_name.
  - apply stated_blank; constructor.
Qed.
Lemma known20 : names_known entries1 [formula20].
Proof. intros c s [<-|[]] I. cbn [formula20 leaves app In] in I. destruct I as [<-|[<-|[<-|[]]]]; vm_compute; tauto. Qed.
Lemma inhabited1 : inhabited_groups entries1.
Proof.
  intros j M. destruct (marked_at _ _ _ M) as (Em & L). change (List.length entries1) with 8 in L. destruct j as [|[|[|[|[|[|[|[|j]]]]]]]]; try discriminate Em; [|lia].
  exists 4, (T "AM"). apply kids_ok. split; vm_compute; tauto.
Qed.
Lemma plain20 : forall c, In c [formula20] -> ~ negates c.
Proof. intros c [<-|[]] N. inversion N as [| |o l r X|o l r X]; subst; inversion X as [| |o' l' r' X'|o' l' r' X']; subst; inversion X'. Qed.
Definition document20 : document := Document (Some (T "cars")) None text1 (Some constraints20).
(** The radio plays FM. *)
Definition sel20 (s : text) : bool := negb (text_eqb s (T "AM")).
Lemma stated20 : stated_configuration entries1 [formula20] sel20.
Proof. apply stated_b_ok; [vm_compute; reflexivity|]. intros c [<-|[]]. exact (truth_or sel20 _ _ true _ (truth_name sel20 "FM") (truth_and sel20 _ _ _ _ (truth_name sel20 "Red") (truth_name sel20 "Radio"))). Qed.
(** Without the radio the formula does not hold. *)
Definition sel21 (s : text) : bool := existsb (text_eqb s) [T "Car"; T "Engine"; T "Colour"; T "Red"].
Lemma truth_fun sel c b : truth sel c b -> forall b', truth sel c b' -> b = b'.
Proof.
  intros H. induction H as [s|c b H IH|l r x y Hl IHl Hr IHr|l r x y Hl IHl Hr IHr]; intros b' H'; inversion H'; subst; [reflexivity|f_equal; apply IH; assumption|f_equal; [apply IHl|apply IHr]; assumption..].
Qed.
Lemma not_stated20 : ~ stated_configuration entries1 [formula20] sel21.
Proof.
  intros C. pose proof (sc_formulas _ _ _ C formula20 (or_introl eq_refl)) as H.
  pose proof (truth_or sel21 _ _ _ _ (truth_name sel21 "FM") (truth_and sel21 _ _ _ _ (truth_name sel21 "Red") (truth_name sel21 "Radio"))) as H'.
  pose proof (truth_fun _ _ _ H' _ H) as E. vm_compute in E. discriminate E.
Qed.
Definition tried20 : list assignment :=
  map (fun l => Assignment (fun s => negb (existsb (text_eqb s) l)) (fun _ => 0%Z) (fun _ => 0%Z))
    [[]; map T ["AM"]; map T ["FM"]; map T ["AM"; "FM"]; map T ["Radio"; "group_1"; "AM"; "FM"]; map T ["Colour"; "Red"]].
Definition listing20 : option (list (list (option string))) :=
  let* (h, m) := SxfmExamples.outcome (read_sxfm order no_sci (@rev _) 9 true heap0 document20) in
  let* s := SolverModel.load order 9 h m in let* r := get_all (trying tried20) 20 s in
  match r with inl l => Some (map (fun c => map (fun n => option_map U (option_value c n)) (labels entries1)) l) | inr _ => None end.
Lemma stated_example :
  is_order order /\ (forall l : list (nat * (text * rkind)), Permutation (rev l) l) /\ heap_ok heap0 /\ indentation_ok tab /\
  (forall e, In e entries1 -> entry_ok e /\ id_apart e) /\ tree_ok entries1 /\ tree_text tab entries1 text1 /\ constraints_text entries1 [formula20] constraints20 /\
  names_known entries1 [formula20] /\ inhabited_groups entries1 /\ (forall c, In c [formula20] -> ~ negates c) /\
  stated_configuration entries1 [formula20] sel20 /\ ~ stated_configuration entries1 [formula20] sel21 /\
  (let row a f := map Some ["true"; "true"; "true"; "true"; a; f; "true"; "true"] in listing20 = Some [row "false" "true"; row "true" "false"]).
Proof.
  split; [exact order_ok|]. split; [intros l; apply Permutation_sym, Permutation_rev|]. split; [exact heap0_ok|]. split; [exact indentation1|]. split; [exact entries1_ok|].
  split; [exact tree1_ok|]. split; [exact text1_ok|]. split; [exact constraints20_ok|]. split; [exact known20|]. split; [exact inhabited1|]. split; [exact plain20|]. split; [exact stated20|]. split; [exact not_stated20|].
  cbv zeta. vm_compute. reflexivity.
Qed.

(** ** A formula with negation *)
Lemma stated21 : stated_configuration entries1 [formula1] sel21.
Proof.
  apply stated_b_ok; [vm_compute; reflexivity|]. intros c [<-|[]].
  exact (truth_or sel21 _ _ true _ (truth_negated sel21 _ false (truth_name sel21 "AM")) (truth_and sel21 _ _ _ _ (truth_name sel21 "Red") (truth_name sel21 "Engine"))).
Qed.
Lemma negates1 : negates formula1.
Proof. apply negates_left. constructor. Qed.
Lemma negated_refuted : exists ord sci order' or_first h d n ind es cs sel,
  is_order ord /\ (forall l, Permutation (order' l) l) /\ heap_ok h /\ d_name d = Some n /\
  ind = match d_indentation d with Some i => i | None => [ascii_of_nat 9] end /\ indentation_ok ind /\
  (forall e, In e es -> entry_ok e /\ id_apart e) /\ tree_ok es /\ tree_text ind es (d_tree d) /\
  match d_constraints d with Some t => constraints_text es cs t | None => cs = [] end /\ names_known es cs /\ inhabited_groups es /\
  stated_configuration es cs sel /\
  exists k, forall fuel, k <= fuel -> exists h' m, read_sxfm ord sci order' fuel or_first h d = SxDone (h', Some m) /\
    (forall a, ~ SolverSpec.valid h' m a) /\ forall ord' fuel', SolverModel.load ord' fuel' h' m = None.
Proof.
  exists order, no_sci, (@rev _), true, heap0, document1, (T "cars"), tab, entries1, [formula1], sel21.
  assert (forall l : list (nat * (text * rkind)), Permutation (rev l) l) as P by (intros l; apply Permutation_sym, Permutation_rev).
  split; [exact order_ok|]. split; [exact P|]. split; [exact heap0_ok|]. split; [reflexivity|]. split; [reflexivity|]. split; [exact indentation1|]. split; [exact entries1_ok|].
  split; [exact tree1_ok|]. split; [exact text1_ok|]. split; [exact constraints1_ok|]. split; [exact known1|]. split; [exact inhabited1|]. split; [exact stated21|].
  destruct (document_valid order no_sci (@rev _) true heap0 document1 (T "cars") tab entries1 [formula1] order_ok P heap0_ok eq_refl eq_refl indentation1 entries1_ok tree1_ok text1_ok constraints1_ok known1) as (k1 & H1).
  destruct (document_negated order no_sci (@rev _) true heap0 document1 (T "cars") tab entries1 [formula1] formula1 order_ok P heap0_ok eq_refl eq_refl indentation1 entries1_ok tree1_ok text1_ok constraints1_ok known1 (or_introl eq_refl) negates1) as (k2 & H2).
  exists (k1 + k2). intros fuel L. destruct (H1 fuel ltac:(lia)) as (h' & m & E & V). destruct (H2 fuel ltac:(lia)) as (h2 & m2 & E2 & Z). rewrite E in E2. injection E2 as <- <-. exists h', m. split; [exact E|]. split; [|exact Z].
  intros a Va. apply V in Va. exact (proj2 Va formula1 (or_introl eq_refl) negates1).
Qed.
